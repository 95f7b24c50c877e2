(* Directories whose files are replaced one by one: lookups, recovery, stops on the way. *)
From Coq Require Import NArith ZArith List Bool Lia.
Import ListNotations.
From Verif Require Import Model.Base Model.Event Model.Crash Proof.DirL.

Section Map.
Context {C D : Type}.
Variables (f g : C -> D).            (* for files in use, for incomplete ones *)
Definition smap (s : gslot C) : gslot D :=
  mk_slot (option_map f (sl_id s)) (option_map g (sl_inc s)) (option_map f (sl_comp s)).
Definition dmap (d : gdir C) : gdir D := map (fun x => (fst x, smap (snd x))) d.

Lemma is_some_map {A B} (h : A -> B) o : is_some (option_map h o) = is_some o.
Proof. destruct o; auto. Qed.
Lemma find_map_key d k : find (fun x => dkey_eqb (fst x) k) (dmap d) =
  option_map (fun x => (fst x, smap (snd x))) (find (fun x => dkey_eqb (fst x) k) d).
Proof. induction d as [|x d IH]; auto. cbn. destruct (dkey_eqb (fst x) k); auto. Qed.
Lemma dget_map d k : dget (dmap d) k = smap (dget d k).
Proof. unfold dget. rewrite find_map_key. destruct (find _ d); auto. Qed.
Lemma drop_map d k : drop_key (dmap d) k = dmap (drop_key d k).
Proof.
  unfold drop_key, dmap. induction d as [|x d IH]; auto. cbn [map filter fst]. rewrite IH.
  destruct (dkey_eqb (fst x) k); auto.
Qed.
Lemma dset_map d k s : dset (dmap d) k (smap s) = dmap (dset d k s).
Proof.
  unfold dset. cbn [smap sl_id sl_inc sl_comp]. rewrite !is_some_map, drop_map.
  destruct (_ || _)%bool; auto.
Qed.
Lemma keys_map d : map fst (dmap d) = map fst d.
Proof. unfold dmap. rewrite map_map. auto. Qed.
Lemma worklist_map sts d : worklist sts (dmap d) = worklist sts d.
Proof. unfold worklist. rewrite keys_map. auto. Qed.
Lemma existsb_map d k : existsb (fun x => dkey_eqb (fst x) k) (dmap d) = existsb (fun x => dkey_eqb (fst x) k) d.
Proof. induction d as [|x d IH]; auto. cbn. rewrite <- IH. auto. Qed.
Lemma find_part_map sts d k : find_part sts (dmap d) k = option_map smap (find_part sts d k).
Proof.
  unfold find_part. generalize (filter (fun st => negb (st =? fst k)%N) sts). intros l.
  replace (find (fun st => existsb (fun x => dkey_eqb (fst x) (st, snd k)) (dmap d)) l)
    with (find (fun st => existsb (fun x => dkey_eqb (fst x) (st, snd k)) d) l).
  - destruct (find _ l); auto. rewrite dget_map. auto.
  - induction l as [|st l IH]; auto. cbn [find]. rewrite existsb_map, IH. auto.
Qed.

Definition rmap {A B} (h : A -> B) (r : res A) : res B :=
  match r with Ok x => Ok (h x) | Err => Err | UB => UB end.
Lemma validate_map sts d k : recover_validate sts (dmap d) k = rmap dmap (recover_validate sts d k).
Proof.
  unfold recover_validate. rewrite dget_map. cbn [smap sl_id sl_inc sl_comp]. rewrite !is_some_map.
  set (s := dget d k).
  destruct (is_some (sl_id s)) eqn:E1, (is_some (sl_inc s)) eqn:E2, (is_some (sl_comp s)) eqn:E3; cbn [rmap]; auto.
  - rewrite <- dset_map. auto.
  - rewrite <- dset_map. auto.
  - rewrite drop_map. auto.
  - rewrite find_part_map. destruct (find_part sts d k) as [o|]; cbn [option_map].
    + cbn [smap sl_id]. rewrite is_some_map. destruct (is_some (sl_id o)); auto. cbn. rewrite drop_map. auto.
    + cbn. rewrite <- dset_map. auto.
Qed.
Lemma validate_all_map sts : forall l d, validate_all sts (dmap d) l = rmap dmap (validate_all sts d l).
Proof.
  induction l as [|k l IH]; intros d; cbn [validate_all]; auto. rewrite validate_map.
  destruct (recover_validate sts d k); cbn [rmap bind]; auto.
Qed.
Lemma interrupted_map sts : forall cuts d, interrupted sts (dmap d) cuts = rmap dmap (interrupted sts d cuts).
Proof.
  induction cuts as [|c cuts IH]; intros d; cbn [interrupted]; auto. rewrite worklist_map, validate_all_map.
  destruct (validate_all sts d _); cbn [rmap bind]; auto.
Qed.
End Map.

(* what an incomplete file holds does not matter *)
Definition dull (d : dir) : dir := dmap (fun c => c) (fun _ : content => @None dfile) d.
Lemma dull_settled d : (forall k, sl_inc (dget d k) = None) -> wfd d -> dull d = d.
Proof.
  intros A [W1 W2]. assert (E : forall x, In x d -> sl_inc (snd x) = None).
  { intros x Hx. specialize (A (fst x)). unfold dget in A.
    destruct (find (fun y => dkey_eqb (fst y) (fst x)) d) as [y|] eqn:Ey.
    - apply find_some in Ey as [Y1 Y2]. apply dkey_eqb_true in Y2. assert (y = x); [|subst; auto].
      clear - W1 Hx Y1 Y2. induction d as [|z d IH]; [contradiction|]. cbn in W1. apply NoDup_cons_iff in W1 as [W0 W1].
      destruct Hx as [->|Hx], Y1 as [->|Y1]; auto.
      + exfalso. apply W0. rewrite <- Y2. apply in_map. auto.
      + exfalso. apply W0. rewrite Y2. apply in_map. auto.
    - exfalso. eapply find_none in Ey; [|exact Hx]. cbn in Ey. rewrite dkey_eqb_refl in Ey. discriminate. }
  clear - E. unfold dull, dmap. induction d as [|[k [a b c]] d IH]; auto. cbn [map].
  rewrite IH by (intros; apply E; right; auto). f_equal. unfold smap.
  pose proof (E _ (or_introl eq_refl)) as X. cbn in X. subst b. cbn. destruct a, c; auto.
Qed.
