(* The objects of a catalog, whatever their order. *)
From Coq Require Import NArith ZArith Arith String List Bool Lia Permutation.
Import ListNotations.
From Verif Require Import Model.Base Model.Data Model.Lex Model.Uuid Model.Source Model.Catalog.
From Verif Require Import Spec.Value Spec.JsonText Spec.Catalog.
From Verif Require Import Proof.DataL Proof.SourceL.

Definition cnt {A} (f : A -> bool) (l : list A) : Z := Z.of_nat (length (filter f l)).
Lemma cnt_cons {A} (f : A -> bool) a l : cnt f (a :: l) = ((if f a then 1 else 0) + cnt f l)%Z.
Proof. unfold cnt. cbn [filter]. destruct (f a); cbn [length]; lia. Qed.
Lemma cnt_nonneg {A} (f : A -> bool) l : (0 <= cnt f l)%Z.
Proof. unfold cnt. lia. Qed.
Lemma cnt_perm {A} (f : A -> bool) l l' : Permutation l l' -> cnt f l = cnt f l'.
Proof. induction 1; rewrite ?cnt_cons in *; lia. Qed.
Lemma cnt_zero {A} (f : A -> bool) l : cnt f l = 0%Z <-> forall a, In a l -> f a = false.
Proof.
  induction l as [|a l IH]; [split; [contradiction|reflexivity]|]. rewrite cnt_cons. pose proof (cnt_nonneg f l). split.
  - intros H0 x [->|Hx]; [destruct (f x); [lia|reflexivity]|]. apply IH; [destruct (f a); lia|exact Hx].
  - intro H0. rewrite (H0 a (or_introl eq_refl)). apply IH. intros x Hx. apply H0. right. exact Hx.
Qed.
Lemma cnt_ext {A} (f g : A -> bool) l : (forall a, In a l -> f a = g a) -> cnt f l = cnt g l.
Proof.
  induction l as [|a l IH]; intro H; [reflexivity|]. rewrite !cnt_cons, (H a (or_introl eq_refl)), IH; [reflexivity|].
  intros x Hx. apply H. right. exact Hx.
Qed.
Lemma cnt_map {A B} (f : B -> bool) (g : A -> B) l : cnt f (map g l) = cnt (fun a => f (g a)) l.
Proof. induction l as [|a l IH]; [reflexivity|]. cbn [map]. rewrite !cnt_cons, IH. reflexivity. Qed.

Lemma in_perm {A} (x : A) l : In x l -> exists r, Permutation l (x :: r).
Proof. intro H. apply in_split in H. destruct H as (a & b & ->). exists (a ++ b). symmetry. apply Permutation_middle. Qed.
Lemma Forall_perm {A} (P : A -> Prop) l l' : Permutation l l' -> Forall P l -> Forall P l'.
Proof. intros H. rewrite !Forall_forall. intros F x Hx. apply F. apply (Permutation_in x (Permutation_sym H) Hx). Qed.
Lemma NoDup_perm {A B} (f : A -> B) l l' : Permutation l l' -> NoDup (map f l) -> NoDup (map f l').
Proof. intros H. apply Permutation_NoDup, Permutation_map, H. Qed.

Definition link_ok (C : list cloud) (s : storage) : Prop :=
  match st_cloud s with
  | None => True
  | Some i => exists k, In k C /\ cl_id k = i /\ cl_name k = so_cloud (st_source s)
  end.
Definition type_ok (k : cloud) : Prop := cc_type (cl_conf k) = chars "mock" \/ cc_type (cl_conf k) = chars "s3".
Definition bits_fine (s : storage) : Prop :=
  as_created (st_source s) = st_source s /\ (u_a (so_uuid (st_source s)) < 2 ^ 64)%N /\ (u_b (so_uuid (st_source s)) < 2 ^ 64)%N.

Record base (mn : bool) (C : list cloud) (S : list storage) (T : list tier) (n : nat) : Prop := mk_base {
  b_cnames : NoDup (map cl_name C);
  b_snames : NoDup (map st_name S);
  b_main : mn = true -> In main_name (map st_name S);
  b_cids : NoDup (map cl_id C);
  b_cnext : Forall (fun k => cl_id k < n) C;
  b_sids : NoDup (map st_id S);
  b_snext : Forall (fun s => st_id s < n) S;
  b_links : Forall (link_ok C) S;
  b_tiers : Forall (fun t => In (ti_storage t) (map st_id S)) T;
  b_crefs : Forall (fun k => cl_refs k = cnt (uses_cloud (cl_id k)) S) C;
  b_srefs : Forall (fun s => st_refs s = cnt (uses_storage (st_id s)) T) S;
  b_types : Forall type_ok C;
  b_bits : Forall bits_fine S }.

Definition kept (c : catalog) : Prop :=
  holds (va_clouds c) (map cloud_value (vw_clouds (view_of c))) /\
  holds (va_storages c) (map source_value (vw_storages (view_of c))) /\
  holds (va_pipeline c) (map tier_value (vw_tiers (view_of c))).

Lemma sound_base c : sound c <-> base true (ca_clouds c) (ca_storages c) (ca_tiers c) (ca_next c) /\ kept c.
Proof.
  split.
  - intros [A B M [I1 I2] [J1 J2] L T R1 R2 K Ty Bi]. split; [|exact K]. constructor; try assumption.
    + intros _. exact M.
    + apply Forall_forall. intros s Hs. unfold link_ok. destruct (st_cloud s) as [i|] eqn:E; [|exact I]. apply L; assumption.
    + apply Forall_forall. intros t Ht. destruct (T t Ht) as (s & Hs & <-). apply in_map. exact Hs.
    + apply Forall_forall. exact R1.
    + apply Forall_forall. exact R2.
  - intros [[A B M I1 I2 J1 J2 L T R1 R2 Ty Bi] K]. constructor; try assumption; try (split; assumption).
    + apply M. reflexivity.
    + intros s i Hs E. rewrite Forall_forall in L. specialize (L s Hs). unfold link_ok in L. rewrite E in L. exact L.
    + intros t Ht. rewrite Forall_forall in T. specialize (T t Ht). apply in_map_iff in T. destruct T as (s & <- & Hs). eauto.
    + apply Forall_forall. exact R1.
    + apply Forall_forall. exact R2.
Qed.

Lemma base_perm mn C C' S S' T n : Permutation C C' -> Permutation S S' -> base mn C S T n -> base mn C' S' T n.
Proof.
  intros HC HS [A B M I1 I2 J1 J2 L Ti R1 R2 Ty Bi].
  constructor; eauto using NoDup_perm, Forall_perm.
  - intro Hm. apply (Permutation_in _ (Permutation_map st_name HS) (M Hm)).
  - apply (Forall_perm _ _ _ HS). revert L. apply Forall_impl. intro s. unfold link_ok. destruct (st_cloud s); [|auto].
    intros (k & Hk & E). exists k. split; [apply (Permutation_in _ HC Hk)|exact E].
  - revert Ti. apply Forall_impl. intros t Ht. apply (Permutation_in _ (Permutation_map st_id HS) Ht).
  - apply (Forall_perm _ _ _ HC). revert R1. apply Forall_impl. intros k ->. apply cnt_perm, HS.
Qed.

Lemma on_storage_perm S s f : NoDup (map st_id S) -> In s S -> exists r, Permutation S (s :: r) /\ Permutation (on_storage (st_id s) f S) (f s :: r)
  /\ Permutation (filter (fun x => negb (st_id x =? st_id s)) S) r.
Proof.
  intros Hd Hs. apply in_split in Hs. destruct Hs as (a & b & ->). exists (a ++ b).
  rewrite map_app in Hd. cbn [map] in Hd. pose proof (NoDup_remove_2 _ _ _ Hd) as Hn. rewrite <- map_app in Hn.
  assert (E : forall l, (forall x, In x l -> In x (a ++ b)) -> on_storage (st_id s) f l = l /\ filter (fun x => negb (st_id x =? st_id s)) l = l).
  { induction l as [|x l IH]; intro H; [split; reflexivity|]. destruct IH as [IH1 IH2]; [intros y Hy; apply H; right; exact Hy|].
    assert (st_id x =? st_id s = false) as Ex.
    { apply Nat.eqb_neq. intro E. apply Hn. rewrite <- E. apply in_map, H. left. reflexivity. }
    unfold on_storage in *. cbn [map filter]. rewrite Ex. cbn [negb]. rewrite IH1, IH2. split; reflexivity. }
  split; [symmetry; apply Permutation_middle|]. unfold on_storage in *. rewrite map_app, filter_app. cbn [map filter]. rewrite Nat.eqb_refl. cbn [negb].
  destruct (E a) as [-> ->]; [intros x Hx; apply in_or_app; left; exact Hx|]. destruct (E b) as [-> ->]; [intros x Hx; apply in_or_app; right; exact Hx|].
  split; [symmetry; apply Permutation_middle|reflexivity].
Qed.
Lemma on_cloud_perm C k f : NoDup (map cl_id C) -> In k C -> exists r, Permutation C (k :: r) /\ Permutation (on_cloud (cl_id k) f C) (f k :: r)
  /\ Permutation (filter (fun x => negb (cl_id x =? cl_id k)) C) r.
Proof.
  intros Hd Hs. apply in_split in Hs. destruct Hs as (a & b & ->). exists (a ++ b).
  rewrite map_app in Hd. cbn [map] in Hd. pose proof (NoDup_remove_2 _ _ _ Hd) as Hn. rewrite <- map_app in Hn.
  assert (E : forall l, (forall x, In x l -> In x (a ++ b)) -> on_cloud (cl_id k) f l = l /\ filter (fun x => negb (cl_id x =? cl_id k)) l = l).
  { induction l as [|x l IH]; intro H; [split; reflexivity|]. destruct IH as [IH1 IH2]; [intros y Hy; apply H; right; exact Hy|].
    assert (cl_id x =? cl_id k = false) as Ex.
    { apply Nat.eqb_neq. intro E. apply Hn. rewrite <- E. apply in_map, H. left. reflexivity. }
    unfold on_cloud in *. cbn [map filter]. rewrite Ex. cbn [negb]. rewrite IH1, IH2. split; reflexivity. }
  split; [symmetry; apply Permutation_middle|]. unfold on_cloud in *. rewrite map_app, filter_app. cbn [map filter]. rewrite Nat.eqb_refl. cbn [negb].
  destruct (E a) as [-> ->]; [intros x Hx; apply in_or_app; left; exact Hx|]. destruct (E b) as [-> ->]; [intros x Hx; apply in_or_app; right; exact Hx|].
  split; [symmetry; apply Permutation_middle|reflexivity].
Qed.

Ltac fcons H := apply Forall_cons_iff in H; destruct H as [? H].

(* clouds *)
Lemma cloud_added mn C S T n k : base mn C S T n -> ~ In (cl_name k) (map cl_name C) -> cl_id k = n -> cl_refs k = 0%Z -> type_ok k -> base mn (k :: C) S T (Datatypes.S n).
Proof.
  intros [A B M I1 I2 J1 J2 L Ti R1 R2 Ty Bi] Hn Hi Hr Ht.
  assert (I2' : Forall (fun k => cl_id k < Datatypes.S n) C) by (revert I2; apply Forall_impl; intros; lia).
  constructor; try assumption.
  - cbn. constructor; assumption.
  - cbn. constructor; [|assumption]. intro H. apply in_map_iff in H. destruct H as (x & Ex & Hx). rewrite Forall_forall in I2. specialize (I2 x Hx). cbn in I2. lia.
  - constructor; [lia|assumption].
  - revert J2. apply Forall_impl. intros; lia.
  - revert L. apply Forall_impl. intro s. unfold link_ok. destruct (st_cloud s); [|auto]. intros (x & Hx & E). exists x. split; [right; exact Hx|exact E].
  - constructor; [|exact R1]. rewrite Hr. symmetry. apply cnt_zero. intros s Hs. unfold uses_cloud. rewrite Forall_forall in L. specialize (L s Hs). unfold link_ok in L.
    destruct (st_cloud s) as [i|]; [|reflexivity]. destruct L as (x & Hx & <- & _). rewrite Forall_forall in I2. specialize (I2 x Hx). cbn in I2. apply Nat.eqb_neq. lia.
  - constructor; assumption.
Qed.
Lemma cloud_removed mn C S T n k : base mn (k :: C) S T n -> (cl_refs k <= 0)%Z -> base mn C S T n.
Proof.
  intros [A B M I1 I2 J1 J2 L Ti R1 R2 Ty Bi] Hr. fcons R1. fcons I2. fcons Ty. cbn in A, I1. inversion A; subst. inversion I1; subst.
  constructor; try assumption.
  pose proof (cnt_nonneg (uses_cloud (cl_id k)) S). assert (Z0 : cnt (uses_cloud (cl_id k)) S = 0%Z) by lia. rewrite cnt_zero in Z0.
  apply Forall_forall. intros s Hs. rewrite Forall_forall in L. specialize (L s Hs). specialize (Z0 s Hs). unfold link_ok, uses_cloud in *.
  destruct (st_cloud s) as [i|]; [|exact Logic.I]. destruct L as (x & [->|Hx] & Ei & E); [|eauto]. apply Nat.eqb_neq in Z0. congruence.
Qed.
Lemma cloud_changed mn C S T n k k' : base mn (k :: C) S T n -> cl_id k' = cl_id k -> cl_refs k' = cl_refs k -> cl_name k' = cl_name k -> type_ok k' -> base mn (k' :: C) S T n.
Proof.
  intros [A B M I1 I2 J1 J2 L Ti R1 R2 Ty Bi] Ei Er En Et. fcons R1. fcons I2. fcons Ty.
  constructor; try assumption; cbn [map]; rewrite ?Ei, ?En; try assumption.
  - constructor; [lia|assumption].
  - revert L. apply Forall_impl. intro s. unfold link_ok. destruct (st_cloud s); [|auto]. intros (x & [->|Hx] & E & E'); [exists k'; split; [left; reflexivity|split; congruence]|].
    exists x. split; [right; exact Hx|auto].
  - constructor; [congruence|assumption].
  - constructor; assumption.
Qed.
Definition rename_in (n m : list byte) (s : storage) : storage :=
  if same_bytes (so_cloud (st_source s)) n then with_source (fun x => source_set_cloud x m) s else s.
Lemma rename_in_same n m s : st_id (rename_in n m s) = st_id s /\ st_name (rename_in n m s) = st_name s /\ st_cloud (rename_in n m s) = st_cloud s
  /\ st_refs (rename_in n m s) = st_refs s /\ st_parts (rename_in n m s) = st_parts s.
Proof. unfold rename_in. destruct (same_bytes _ _); repeat split; reflexivity. Qed.
Lemma created_set_cloud s m : as_created s = s -> as_created (source_set_cloud s m) = source_set_cloud s m.
Proof. intro H. change m with (or_else (Some m) (so_cloud s)). 
  change (source_set_cloud s (or_else (Some m) (so_cloud s))) with (altered (mk_salter None (Some m) None None None None None None None None None) s). apply created_altered, H. Qed.
Lemma bits_rename n m s : bits_fine s -> bits_fine (rename_in n m s).
Proof.
  unfold rename_in, bits_fine. destruct (same_bytes _ _); [|auto]. cbn. intros (A & B & C). split; [apply created_set_cloud, A|auto].
Qed.
Lemma map_same {A B} (f : A -> B) (g : A -> A) l : (forall a, f (g a) = f a) -> map f (map g l) = map f l.
Proof. intro H. rewrite map_map. apply map_ext, H. Qed.
Lemma cloud_renamed mn C S T n k m : base mn (k :: C) S T n -> ~ In m (map cl_name (k :: C)) ->
  base mn (with_conf (fun x => cloudc_set_name x m) k :: C) (map (rename_in (cl_name k) m) S) T n.
Proof.
  intros [A B M I1 I2 J1 J2 L Ti R1 R2 Ty Bi] Hm. fcons I2. fcons Ty. cbn [map] in A. apply NoDup_cons_iff in A. destruct A as [A0 A].
  pose proof (map_same st_name (rename_in (cl_name k) m) S ltac:(intro; apply rename_in_same)) as En.
  pose proof (map_same st_id (rename_in (cl_name k) m) S ltac:(intro; apply rename_in_same)) as Ei.
  constructor; rewrite ?En, ?Ei; try assumption.
  - cbn [map]. constructor; [|exact A]. intro Hx. apply Hm. right. exact Hx.
  - constructor; assumption.
  - apply Forall_forall. intros s' Hs'. apply in_map_iff in Hs'. destruct Hs' as (s & <- & Hs). rewrite Forall_forall in J2. rewrite (proj1 (rename_in_same _ _ s)). apply J2, Hs.
  - apply Forall_forall. intros s' Hs'. apply in_map_iff in Hs'. destruct Hs' as (s & <- & Hs). rewrite Forall_forall in L. specialize (L s Hs).
    unfold link_ok in *. rewrite (proj1 (proj2 (proj2 (rename_in_same (cl_name k) m s)))). destruct (st_cloud s) as [i|]; [|exact Logic.I].
    destruct L as (x & [<-|Hx] & E1 & E2).
    + exists (with_conf (fun x => cloudc_set_name x m) k). split; [left; reflexivity|]. split; [exact E1|]. unfold rename_in. rewrite <- E2, same_bytes_refl. reflexivity.
    + exists x. split; [right; exact Hx|]. split; [exact E1|]. unfold rename_in. rewrite (proj2 (same_bytes_neq _ _)); [exact E2|].
      intro E. apply A0. rewrite <- E, <- E2. apply in_map, Hx.
  - assert (F' : Forall (fun x => cl_refs x = cnt (uses_cloud (cl_id x)) (map (rename_in (cl_name k) m) S)) (k :: C)).
    { revert R1. apply Forall_impl. intros x ->. rewrite cnt_map. apply cnt_ext. intros s _. unfold uses_cloud. rewrite (proj1 (proj2 (proj2 (rename_in_same _ m s)))). reflexivity. }
    fcons F'. constructor; assumption.
  - apply Forall_forall. intros s' Hs'. apply in_map_iff in Hs'. destruct Hs' as (s & <- & Hs). rewrite Forall_forall in R2.
    rewrite (proj1 (proj2 (proj2 (proj2 (rename_in_same _ m s))))), (proj1 (rename_in_same _ m s)). apply R2, Hs.
  - constructor; assumption.
  - apply Forall_forall. intros s' Hs'. apply in_map_iff in Hs'. destruct Hs' as (s & <- & Hs). rewrite Forall_forall in Bi. apply bits_rename, Bi, Hs.
Qed.
(* a name that no cloud has is renamed in the storages: nothing is linked to it *)
Lemma cloud_renamed_none mn C S T n nm m : base mn C S T n -> ~ In nm (map cl_name C) -> base mn C (map (rename_in nm m) S) T n.
Proof.
  intros [A B M I1 I2 J1 J2 L Ti R1 R2 Ty Bi] Hm.
  pose proof (map_same st_name (rename_in nm m) S ltac:(intro; apply rename_in_same)) as En.
  pose proof (map_same st_id (rename_in nm m) S ltac:(intro; apply rename_in_same)) as Ei.
  constructor; rewrite ?En, ?Ei; try assumption.
  - apply Forall_forall. intros s' Hs'. apply in_map_iff in Hs'. destruct Hs' as (s & <- & Hs). rewrite Forall_forall in J2. rewrite (proj1 (rename_in_same _ _ s)). apply J2, Hs.
  - apply Forall_forall. intros s' Hs'. apply in_map_iff in Hs'. destruct Hs' as (s & <- & Hs). rewrite Forall_forall in L. specialize (L s Hs).
    unfold link_ok in *. rewrite (proj1 (proj2 (proj2 (rename_in_same nm m s)))). destruct (st_cloud s) as [i|]; [|exact Logic.I].
    destruct L as (x & Hx & E1 & E2). exists x. split; [exact Hx|]. split; [exact E1|]. unfold rename_in. rewrite (proj2 (same_bytes_neq _ _)); [exact E2|].
    intro E. apply Hm. rewrite <- E, <- E2. apply in_map, Hx.
  - revert R1. apply Forall_impl. intros x ->. rewrite cnt_map. apply cnt_ext. intros s _. unfold uses_cloud. rewrite (proj1 (proj2 (proj2 (rename_in_same _ m s)))). reflexivity.
  - apply Forall_forall. intros s' Hs'. apply in_map_iff in Hs'. destruct Hs' as (s & <- & Hs). rewrite Forall_forall in R2.
    rewrite (proj1 (proj2 (proj2 (proj2 (rename_in_same _ m s))))), (proj1 (rename_in_same _ m s)). apply R2, Hs.
  - apply Forall_forall. intros s' Hs'. apply in_map_iff in Hs'. destruct Hs' as (s & <- & Hs). rewrite Forall_forall in Bi. apply bits_rename, Bi, Hs.
Qed.

(* storages *)
Lemma storage_added mn C S T n s : base mn C S T n -> ~ In (st_name s) (map st_name S) -> st_id s = n -> st_refs s = 0%Z -> st_cloud s = None -> bits_fine s -> base mn C (s :: S) T (Datatypes.S n).
Proof.
  intros [A B M I1 I2 J1 J2 L Ti R1 R2 Ty Bi] Hn Hi Hr Hc Hb.
  constructor; try assumption.
  - cbn. constructor; assumption.
  - intro Hm. right. exact (M Hm).
  - revert I2. apply Forall_impl. intros; lia.
  - cbn. constructor; [|assumption]. intro H. apply in_map_iff in H. destruct H as (x & Ex & Hx). rewrite Forall_forall in J2. specialize (J2 x Hx). cbn in J2. lia.
  - constructor; [lia|]. revert J2. apply Forall_impl. intros; lia.
  - constructor; [unfold link_ok; rewrite Hc; exact Logic.I|exact L].
  - revert Ti. apply Forall_impl. intros t Ht. right. exact Ht.
  - revert R1. apply Forall_impl. intros k ->. rewrite cnt_cons. unfold uses_cloud at 2. rewrite Hc. lia.
  - constructor; [|exact R2]. rewrite Hr. symmetry. apply cnt_zero. intros t Ht. unfold uses_storage. apply Nat.eqb_neq. rewrite Forall_forall in Ti. specialize (Ti t Ht).
    cbn in Ti. apply in_map_iff in Ti. destruct Ti as (x & Ex & Hx). rewrite Forall_forall in J2. specialize (J2 x Hx). cbn in J2. lia.
  - constructor; assumption.
Qed.
Lemma storage_linked mn C S T n k s : base mn (k :: C) (s :: S) T n -> st_cloud s = None -> cl_name k = so_cloud (st_source s) ->
  base mn (cloud_add_refs 1 k :: C) (with_cloud (Some (cl_id k)) s :: S) T n.
Proof.
  intros [A B M I1 I2 J1 J2 L Ti R1 R2 Ty Bi] Hc Hn. fcons I2. fcons J2. fcons L. fcons R1. fcons R2. fcons Ty. fcons Bi. cbn [map] in I1. apply NoDup_cons_iff in I1. destruct I1 as [I0 I1].
  rewrite cnt_cons in H2. unfold uses_cloud in H2 at 1. rewrite Hc in H2.
  constructor; try assumption.
  - cbn [map]. constructor; assumption.
  - constructor; assumption.
  - constructor; assumption.
  - constructor.
    + unfold link_ok. cbn [st_cloud with_cloud]. exists (cloud_add_refs 1 k). split; [left; reflexivity|]. split; [reflexivity|exact Hn].
    + revert L. apply Forall_impl. intro x. unfold link_ok. destruct (st_cloud x); [|auto]. intros (y & [<-|Hy] & E1 & E2).
      * exists (cloud_add_refs 1 k). split; [left; reflexivity|]. split; [exact E1|exact E2].
      * exists y. split; [right; exact Hy|auto].
  - constructor.
    + cbn [cl_refs cl_id cloud_add_refs]. rewrite cnt_cons. unfold uses_cloud at 1. cbn [st_cloud with_cloud]. rewrite Nat.eqb_refl. lia.
    + apply Forall_forall. intros x Hx. rewrite Forall_forall in R1. specialize (R1 x Hx). cbn beta in R1. rewrite R1, !cnt_cons. unfold uses_cloud at 1 3. rewrite Hc. cbn [st_cloud with_cloud].
      rewrite (proj2 (Nat.eqb_neq _ _)); [reflexivity|]. intro E. apply I0. rewrite E. apply in_map, Hx.
  - constructor; assumption.
  - constructor; assumption.
  - constructor; assumption.
Qed.
Lemma storage_unlinked mn C S T n k s : base mn (k :: C) (s :: S) T n -> st_cloud s = Some (cl_id k) ->
  base mn (cloud_add_refs (-1) k :: C) (with_cloud None s :: S) T n.
Proof.
  intros [A B M I1 I2 J1 J2 L Ti R1 R2 Ty Bi] Hc. fcons I2. fcons J2. fcons L. fcons R1. fcons R2. fcons Ty. fcons Bi. cbn [map] in I1. apply NoDup_cons_iff in I1. destruct I1 as [I0 I1].
  rewrite cnt_cons in H2. unfold uses_cloud in H2 at 1. rewrite Hc, Nat.eqb_refl in H2.
  constructor; try assumption.
  - cbn [map]. constructor; assumption.
  - constructor; assumption.
  - constructor; assumption.
  - constructor; [exact Logic.I|].
    revert L. apply Forall_impl. intro x. unfold link_ok. destruct (st_cloud x); [|auto]. intros (y & [<-|Hy] & E1 & E2).
    + exists (cloud_add_refs (-1) k). split; [left; reflexivity|]. split; [exact E1|exact E2].
    + exists y. split; [right; exact Hy|auto].
  - constructor.
    + cbn [cl_refs cl_id cloud_add_refs]. rewrite cnt_cons. unfold uses_cloud at 1. cbn [st_cloud with_cloud]. lia.
    + apply Forall_forall. intros x Hx. rewrite Forall_forall in R1. specialize (R1 x Hx). cbn beta in R1. rewrite R1, !cnt_cons. unfold uses_cloud at 1 3. rewrite Hc. cbn [st_cloud with_cloud].
      rewrite (proj2 (Nat.eqb_neq _ _)); [reflexivity|]. intro E. apply I0. rewrite E. apply in_map, Hx.
  - constructor; assumption.
  - constructor; assumption.
  - constructor; assumption.
Qed.
Lemma storage_removed mn C S T n s : base mn C (s :: S) T n -> st_cloud s = None -> (st_refs s <= 0)%Z -> st_name s <> main_name -> base mn C S T n.
Proof.
  intros [A B M I1 I2 J1 J2 L Ti R1 R2 Ty Bi] Hc Hr Hm. fcons J2. fcons L. fcons R2. fcons Bi. cbn [map] in *.
  apply NoDup_cons_iff in B. apply NoDup_cons_iff in J1. destruct B as [B0 B]. destruct J1 as [J0 J1].
  constructor; try assumption.
  - intro Hmn. destruct (M Hmn) as [M'|M']; [contradiction|exact M'].
  - apply Forall_forall. intros t Ht. rewrite Forall_forall in Ti. specialize (Ti t Ht). destruct Ti as [Ti|Ti]; [|exact Ti].
    pose proof (cnt_nonneg (uses_storage (st_id s)) T). assert (Z0 : cnt (uses_storage (st_id s)) T = 0%Z) by lia. rewrite cnt_zero in Z0. specialize (Z0 t Ht). unfold uses_storage in Z0.
    apply Nat.eqb_neq in Z0. congruence.
  - revert R1. apply Forall_impl. intros k ->. rewrite cnt_cons. unfold uses_cloud at 1. rewrite Hc. lia.
Qed.
Lemma storage_changed mn C S T n s s' : base mn C (s :: S) T n -> st_id s' = st_id s -> st_refs s' = st_refs s -> st_cloud s' = st_cloud s ->
  (st_cloud s = None \/ so_cloud (st_source s') = so_cloud (st_source s)) ->
  (st_name s' = st_name s \/ (st_name s <> main_name /\ ~ In (st_name s') (map st_name S))) ->
  bits_fine s' -> base mn C (s' :: S) T n.
Proof.
  intros [A B M I1 I2 J1 J2 L Ti R1 R2 Ty Bi] Ei Er Ec El En Hb. fcons J2. fcons L. fcons R2. fcons Bi. cbn [map] in *.
  apply NoDup_cons_iff in B. destruct B as [B0 B].
  constructor; cbn [map]; rewrite ?Ei; try assumption.
  - constructor; [|exact B]. destruct En as [->|[_ En]]; assumption.
  - intro Hmn. destruct En as [->|[En _]]; [exact (M Hmn)|]. destruct (M Hmn) as [M'|M']; [congruence|right; exact M'].
  - constructor; [lia|exact J2].
  - constructor; [|exact L]. unfold link_ok in *. rewrite Ec. destruct El as [->| ->]; [exact Logic.I|]. assumption.
  - revert R1. apply Forall_impl. intros k ->. rewrite !cnt_cons. unfold uses_cloud at 1 3. rewrite Ec. reflexivity.
  - constructor; [congruence|exact R2].
  - constructor; assumption.
Qed.

(* tiers *)
Lemma fold_refs d : forall ids S, fold_left (fun l i => on_storage i (storage_add_refs d) l) ids S
  = map (fun s => storage_add_refs (d * cnt (fun i => st_id s =? i) ids) s) S.
Proof.
  induction ids as [|i ids IH]; intro S; cbn [fold_left].
  - rewrite <- (map_id S) at 1. apply map_ext. intro s. unfold storage_add_refs, cnt. cbn. destruct s. cbn. f_equal. lia.
  - rewrite IH. unfold on_storage. rewrite map_map. apply map_ext. intro s. rewrite cnt_cons. cbn beta. destruct (st_id s =? i) eqn:E.
    + unfold storage_add_refs. cbn [st_id st_source st_cloud st_refs st_parts]. f_equal. lia.
    + reflexivity.
Qed.
Lemma fold_ref_lists (f : list storage -> nat -> list storage) (g : catalog -> nat -> catalog) :
  (forall c i, g c i = set_storages c (f (ca_storages c) i)) ->
  forall ids c, fold_left g ids c = set_storages c (fold_left f ids (ca_storages c)).
Proof.
  intro H. induction ids as [|i ids IH]; intro c; cbn [fold_left]; [destruct c; reflexivity|]. rewrite IH, H. reflexivity.
Qed.
Lemma refs_moved mn C S T n T' d : base mn C S T n -> Forall (fun t => In (ti_storage t) (map st_id S)) T' ->
  (forall s, In s S -> d (st_id s) = cnt (uses_storage (st_id s)) T' - cnt (uses_storage (st_id s)) T)%Z ->
  base mn C (map (fun s => storage_add_refs (d (st_id s)) s) S) T' n.
Proof.
  intros [A B M I1 I2 J1 J2 L Ti R1 R2 Ty Bi] HT Hd.
  pose proof (map_same st_name (fun s => storage_add_refs (d (st_id s)) s) S ltac:(reflexivity)) as En.
  pose proof (map_same st_id (fun s => storage_add_refs (d (st_id s)) s) S ltac:(reflexivity)) as Ei.
  constructor; rewrite ?En, ?Ei; try assumption.
  - apply Forall_map. exact J2.
  - apply Forall_map. exact L.
  - revert R1. apply Forall_impl. intros k ->. rewrite cnt_map. reflexivity.
  - apply Forall_map. apply Forall_forall. intros s Hs. cbn. rewrite Forall_forall in R2. rewrite (R2 s Hs), (Hd s Hs). lia.
  - apply Forall_map. exact Bi.
Qed.
