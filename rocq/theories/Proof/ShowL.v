(* SHOW: bytes that stand for a value, and the sums. *)
From Coq Require Import NArith ZArith Arith String List Bool Lia.
Import ListNotations.
From Verif Require Import Model.Base Model.Codec Model.Data Model.Json Model.Lex Model.Uuid Model.File Model.Source Model.Config Model.Catalog Model.Show.
From Verif Require Import Spec.Value Spec.JsonText Spec.Settings Spec.Catalog Spec.Shown.
From Verif Require Import Proof.CodecL Proof.DataL Proof.JsonL Proof.ConfigL Proof.SourceL Proof.CatalogB.
Local Arguments N.mul : simpl never.
Local Arguments N.div : simpl never.
Local Arguments N.modulo : simpl never.
Local Arguments N.pow : simpl never.
Local Arguments Z.pow : simpl never.
Local Arguments Z.modulo : simpl never.
Local Arguments N.leb : simpl never.
Local Arguments N.add : simpl never.
Local Arguments N.sub : simpl never.
Local Arguments N.eqb : simpl never.
Local Arguments Z.mul : simpl never.
Local Arguments Z.add : simpl never.
Local Arguments Z.sub : simpl never.
Local Arguments le : simpl never.
Local Arguments data_write_len : simpl never.
Local Arguments data_write_len32 : simpl never.
Local Arguments data_write_integer : simpl never.
Local Arguments data_write_raw : simpl never.
Local Arguments chars : simpl never.

(* numbers *)
Lemma signed_mod n : ((signed n) mod 2 ^ 64 = Z.of_N n mod 2 ^ 64)%Z.
Proof.
  unfold signed. rewrite Zminus_mod_idemp_l. f_equal. lia.
Qed.
Lemma encode_num n : encode (num n) = data_write_integer (w64 n).
Proof.
  unfold num. cbn [encode]. rewrite signed_mod. unfold w64, two64. f_equal.
  rewrite <- (N2Z.id (n mod 2 ^ 64)). f_equal. rewrite N2Z.inj_mod. reflexivity.
Qed.
Lemma w64_small n : u64 n -> w64 n = n.
Proof. intro H. unfold w64, two64. apply N.mod_small, H. Qed.
Lemma encode_u64 n : u64 n -> data_write_integer n = encode (num n).
Proof. intro H. rewrite encode_num, w64_small by exact H. reflexivity. Qed.
Lemma encode_w64 n : data_write_integer (w64 n) = encode (num n).
Proof. symmetry. apply encode_num. Qed.
Lemma add64_u64 a b : u64 (add64 a b).
Proof. unfold add64, u64, two64. apply N.mod_upper_bound. discriminate. Qed.
Lemma add64_w64 a b : add64 (w64 a) b = w64 (a + b).
Proof. unfold add64, w64, two64. rewrite N.add_mod_idemp_l by discriminate. reflexivity. Qed.
Lemma w64_add_r a b : w64 (a + w64 b) = w64 (a + b).
Proof. unfold w64, two64. rewrite N.add_mod_idemp_r by discriminate. reflexivity. Qed.
Lemma signed_small n : (n < 2 ^ 63)%N -> signed n = Z.of_N n.
Proof. intro H. unfold signed. rewrite Z.mod_small; lia. Qed.

(* bits *)
Lemma has_bit s i : (0 <? N.land s (2 ^ i))%N = N.testbit s i.
Proof.
  destruct (N.ltb_spec 0 (N.land s (2 ^ i))) as [H|H].
  - destruct (N.testbit s i) eqn:E; [reflexivity|]. exfalso.
    assert (Z : N.land s (2 ^ i) = 0%N); [|lia]. apply N.bits_inj_0. intro n. rewrite N.land_spec, N.pow2_bits_eqb.
    destruct (N.eqb_spec i n) as [->|]; [rewrite E; reflexivity|apply andb_false_r].
  - destruct (N.testbit s i) eqn:E; [|reflexivity]. exfalso.
    assert (Z : N.land s (2 ^ i) = 0%N) by lia. apply (f_equal (fun x => N.testbit x i)) in Z. rewrite N.land_spec, E, N.pow2_bits_true, N.bits_0 in Z. discriminate.
Qed.
Lemma has_local p : part_has p ID = local p.
Proof. exact (has_bit (sp_state p) 0). Qed.
Lemma has_cloud p : part_has p ID_CLOUD = cloudy p.
Proof. exact (has_bit (sp_state p) 3). Qed.

(* sums *)
Definition folded (l : list spart) : stats :=
  mk_stats (w64 (N.of_nat (length l))) (w64 (count local l)) (w64 (count cloudy l)) (w64 (total (if_filed ix_regions) l))
    (fold_right (fun q m => N.min (sp_min q) m) u64_max l) (greatest l)
    (w64 (total all_events l)) (w64 (total in_memory l)) (w64 (total (if_filed ix_size_total) l))
    (w64 (total (if_filed ix_size_total_origin) l)) (w64 (total heaps l)).
Lemma total_app {A} (f : A -> N) a b : total f (a ++ b) = (total f a + total f b)%N.
Proof. induction a as [|x a IH]; cbn [total fold_right app]; [reflexivity|]. fold (total f (a ++ b)). fold (total f a). rewrite IH. lia. Qed.
Lemma total_one {A} (f : A -> N) a : total f [a] = f a.
Proof. cbn. lia. Qed.
Lemma count_app f a b : count f (a ++ b) = (count f a + count f b)%N.
Proof. unfold count. rewrite filter_app, app_length. lia. Qed.
Lemma count_one f a : count f [a] = if f a then 1%N else 0%N.
Proof. unfold count. cbn [filter]. destruct (f a); reflexivity. Qed.
Lemma min_app l p u : fold_right (fun q m => N.min (sp_min q) m) u (l ++ [p]) = N.min (sp_min p) (fold_right (fun q m => N.min (sp_min q) m) u l).
Proof. induction l as [|x l IH]; cbn [fold_right app]; [reflexivity|]. rewrite IH. lia. Qed.
Lemma greatest_app l p : greatest (l ++ [p]) = N.max (sp_max p) (greatest l).
Proof. unfold greatest. induction l as [|x l IH]; cbn [fold_right app]; [reflexivity|]. rewrite IH. lia. Qed.
Lemma if_filed_on f p : (if has_index p then f (sp_index p) else 0%N) = if_filed f p.
Proof. reflexivity. Qed.
Lemma folded_add l p : stats_add (folded l) p = folded (l ++ [p]).
Proof.
  unfold stats_add, folded. cbn [s_partitions s_local s_cloud s_regions s_min s_max s_events s_events_heap s_size s_origin s_heap].
  rewrite has_local, has_cloud, !if_filed_on, !count_app, !total_app, !count_one, !total_one, min_app, greatest_app, app_length.
  assert (M : forall a b : N, (if (a <? b)%N then a else b) = N.min a b) by (intros a b; destruct (N.ltb_spec a b); lia).
  assert (X : forall a b : N, (if (a <? b)%N then b else a) = N.max b a) by (intros a b; destruct (N.ltb_spec a b); lia).
  rewrite M, X, !add64_w64. unfold all_events, in_memory, heaps.
  assert (A : forall a b : N, add64 a b = w64 (a + b)) by reflexivity.
  rewrite (A (sp_count_a p)), (A (sp_heap_a p)), !w64_add_r. cbn [length].
  f_equal; f_equal; lia.
Qed.
Lemma folded_from l : forall d, fold_left stats_add l (folded d) = folded (d ++ l).
Proof.
  induction l as [|p l IH]; intro d; cbn [fold_left]; [rewrite app_nil_r; reflexivity|]. rewrite folded_add, IH, <- app_assoc. reflexivity.
Qed.
Lemma folded_all l : fold_left stats_add l stats_init = folded l.
Proof. exact (folded_from l []). Qed.

(* the least start *)
Lemma least_min p t : Forall (fun q => u64 (sp_min q)) (p :: t) -> fold_right (fun q m => N.min (sp_min q) m) u64_max (p :: t) = least (p :: t).
Proof.
  intro H. cbn [fold_right least]. inversion H as [|a b Hp Ht]; subst. clear H. revert Hp. induction Ht as [|q t Hq Ht IH]; intro Hp; cbn [fold_right].
  - unfold u64, u64_max in *. lia.
  - rewrite <- IH by exact Hp. lia.
Qed.
Lemma greatest_u64 l : Forall (fun q => u64 (sp_max q)) l -> u64 (greatest l).
Proof. induction 1 as [|q t Hq Ht IH]; unfold greatest in *; cbn [fold_right]; unfold u64 in *; lia. Qed.
Lemma least_u64 l : Forall (fun q => u64 (sp_min q)) l -> u64 (least l).
Proof.
  destruct l as [|p t]; intro H; [reflexivity|]. cbn [least]. inversion H as [|a b Hp Ht]; subst. clear H. induction Ht as [|q t Hq Ht IH]; cbn [fold_right]; [exact Hp|].
  unfold u64 in *. lia.
Qed.
Lemma least_le l p : In p l -> (least l <= sp_min p)%N.
Proof.
  destruct l as [|a t]; [intros []|]. cbn [least]. intros [-> |H].
  - induction t as [|q t IH]; cbn [fold_right]; lia.
  - induction t as [|q t IH]; [destruct H|]. cbn [fold_right]. destruct H as [-> |H]; [lia|]. specialize (IH H). lia.
Qed.
Lemma least_in l : l <> [] -> exists p, In p l /\ sp_min p = least l.
Proof.
  destruct l as [|a t]; [congruence|]. intros _. cbn [least]. induction t as [|q t IH]; [exists a; cbn; tauto|]. cbn [fold_right].
  destruct IH as [p [Hp E]]. destruct (N.min_spec (sp_min q) (fold_right (fun q m => N.min (sp_min q) m) (sp_min a) t)) as [[_ ->]|[_ ->]].
  - exists q. cbn. tauto.
  - exists p. rewrite E. split; [|reflexivity]. cbn in *. tauto.
Qed.
Lemma greatest_le l p : In p l -> (sp_max p <= greatest l)%N.
Proof.
  unfold greatest. induction l as [|q t IH]; intro H; [destruct H|]. cbn [fold_right]. destruct H as [-> |H]; [lia|]. specialize (IH H). lia.
Qed.
Lemma greatest_in l : l <> [] -> exists p, In p l /\ sp_max p = greatest l.
Proof.
  unfold greatest. induction l as [|q t IH]; [congruence|]. intros _. cbn [fold_right]. destruct t as [|r t]; [exists q; cbn; split; [tauto|lia]|].
  destruct IH as [p [Hp E]]; [discriminate|]. destruct (N.max_spec (sp_max q) (fold_right (fun q m => N.max (sp_max q) m) 0%N (r :: t))) as [[_ ->]|[_ ->]].
  - exists p. split; [right; exact Hp|exact E].
  - exists q. split; [left; reflexivity|reflexivity].
Qed.

Ltac maps := cbn [encode flat_map fst snd length app Spec.Catalog.pair]; rewrite <- ?app_assoc, ?app_nil_r; cbn [app]; rewrite ?app_nil_r; try reflexivity.

Lemma stats_show_value l : Forall spart_ok l -> (N.of_nat (length l) < 2 ^ 64)%N -> stats_show (fold_left stats_add l stats_init) = encode (stats_value l).
Proof.
  intros H Hl. rewrite folded_all. unfold stats_show, folded, stats_value, put, put_n. cbn [s_partitions s_local s_cloud s_regions s_min s_max s_events s_events_heap s_size s_origin s_heap].
  assert (H1 : Forall (fun q => u64 (sp_min q)) l).
  { eapply Forall_impl; [|exact H]. intros q [A _]. inversion A; assumption. }
  assert (H2 : Forall (fun q => u64 (sp_max q)) l).
  { eapply Forall_impl; [|exact H]. intros q [A _]. inversion A as [|? ? ? B]; inversion B; assumption. }
  assert (E : (if (w64 (N.of_nat (length l)) =? 0)%N then 0%N else fold_right (fun q m => N.min (sp_min q) m) u64_max l) = least l).
  { rewrite w64_small by exact Hl. destruct l as [|p t]; [reflexivity|]. cbn [length]. destruct (N.eqb_spec (N.of_nat (S (length t))) 0); [lia|]. apply least_min, H1. }
  rewrite E, (encode_u64 (least l)) by (apply least_u64, H1). rewrite (encode_u64 (greatest l)) by (apply greatest_u64, H2). rewrite !encode_w64. maps.
Qed.
Ltac u64s := repeat match goal with H : Forall u64 (_ :: _) |- _ => inversion H; clear H; subst end.
Lemma index_show_value i : index_u64 i -> index_show i = encode (index_value i).
Proof.
  unfold index_u64. intro H. u64s. unfold index_show, index_value, put, put_n. rewrite !encode_u64 by assumption. maps.
Qed.
Lemma part_show_value name debug p : spart_ok p -> stats_show_part name debug p = encode (part_value (name (sp_storage p)) debug p).
Proof.
  intros [H Hi]. assert (E : stats_add stats_init p = folded [p]) by exact (folded_add [] p). unfold stats_show_part. rewrite E. clear E.
  unfold folded. cbv zeta. cbn [s_partitions s_local s_cloud s_regions s_min s_max s_events s_events_heap s_size s_origin s_heap].
  rewrite !total_one, has_local, has_cloud. unfold part_value, put, put_n. u64s. assert (Hr : u64 (ix_refreshes (sp_index p))) by (unfold index_u64 in Hi; u64s; assumption).
  rewrite !encode_w64, !encode_u64 by assumption. change (has_index p) with (filed p).
  destruct debug; [destruct (filed p)|].
  - rewrite index_show_value by exact Hi. maps.
  - maps.
  - maps.
Qed.
Lemma source_public_value debug s : source_write true debug s = encode (source_public debug s).
Proof. unfold source_write, source_public, put, put_int. maps. Qed.
Lemma cloud_public_value c : cloudc_write true c = encode (cloud_public c).
Proof. unfold cloudc_write, cloud_public, put. maps. Qed.
Lemma storage_show_value debug s : Forall spart_ok (ss_parts s) -> (N.of_nat (length (ss_parts s)) < 2 ^ 64)%N -> storage_show debug s = encode (storage_value debug s).
Proof. intros H Hl. unfold storage_show, storage_value, put. rewrite source_public_value, stats_show_value by assumption. maps. Qed.
