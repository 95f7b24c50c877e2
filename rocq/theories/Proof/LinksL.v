(* Rings of pointers in a heap *)
From Coq Require Import NArith ZArith List Bool Lia.
Import ListNotations.
From Verif Require Import Model.Links Spec.Links.

Local Open Scope N_scope.

(* from a over l to z *)
Fixpoint chain (h : heap) (a : N) (l : list N) (z : N) : Prop :=
  match l with
  | [] => next (h a) = z /\ prev (h z) = a
  | x :: r => next (h a) = x /\ prev (h x) = a /\ chain h x r z
  end.
Fixpoint lst (a : N) (l : list N) : N := match l with [] => a | x :: r => lst x r end.
Definition fst_or (l : list N) (z : N) : N := match l with [] => z | x :: _ => x end.

Lemma chain_app h l1 : forall a x l2 z, chain h a (l1 ++ x :: l2) z <-> chain h a l1 x /\ chain h x l2 z.
Proof.
  induction l1 as [|y l1 IH]; intros a x l2 z; cbn; [tauto|]. rewrite IH. tauto.
Qed.
Lemma chain_frame h h' l : forall a z, chain h a l z ->
  (forall y, In y (a :: l) -> next (h' y) = next (h y)) -> (forall y, In y (z :: l) -> prev (h' y) = prev (h y)) -> chain h' a l z.
Proof.
  induction l as [|x l IH]; intros a z C Hn Hp; cbn in *.
  - destruct C as [C1 C2]. split; [rewrite Hn; auto|rewrite Hp; auto].
  - destruct C as (C1 & C2 & C3). split; [rewrite Hn; auto|]. split; [rewrite Hp; auto|].
    apply IH; auto. intros y [<-|H]; apply Hp; auto.
Qed.
Lemma lst_in l : forall a, In (lst a l) (a :: l).
Proof. induction l as [|x l IH]; intro a; [now left|]. right. apply IH. Qed.
Lemma lst_app l : forall a x r, lst a (l ++ x :: r) = lst x r.
Proof. induction l as [|y l IH]; intros a x r; [reflexivity|]. apply IH. Qed.
Lemma chain_ends h l : forall a z, chain h a l z -> next (h a) = fst_or l z /\ prev (h z) = lst a l /\ next (h (lst a l)) = z.
Proof.
  induction l as [|x l IH]; intros a z C; cbn in *; [destruct C; subst; auto|].
  destruct C as (C1 & C2 & C3). apply IH in C3 as (_ & C4 & C5). auto.
Qed.
(* the last pointer goes elsewhere *)
Lemma chain_to h h' l : forall a z z', chain h a l z -> NoDup (a :: l) ->
  next (h' (lst a l)) = z' -> prev (h' z') = lst a l ->
  (forall y, In y (a :: l) -> y <> lst a l -> next (h' y) = next (h y)) -> (forall y, In y l -> prev (h' y) = prev (h y)) ->
  chain h' a l z'.
Proof.
  induction l as [|x l IH]; intros a z z' C D E1 E2 Hn Hp; cbn in *; [auto|].
  destruct C as (C1 & C2 & C3). inversion D as [|? ? D1 D2]; subst. split; [|split].
  - rewrite Hn; [reflexivity|auto|]. intro Q. apply D1. pose proof (lst_in l (next (h a))) as L. rewrite <- Q in L. exact L.
  - rewrite Hp; auto.
  - eapply IH; eauto. 
Qed.

Definition world (h : heap) (ls : lists) : Prop := NoDup (nodes ls) /\ forall a xs, In (a, xs) ls -> chain h a xs a.

Lemma nodes_in ls y : In y (nodes ls) <-> exists a xs, In (a, xs) ls /\ In y (a :: xs).
Proof.
  unfold nodes. rewrite in_flat_map. split; [intros ((a, xs) & H & H'); eauto|intros (a & xs & H & H'); exists (a, xs); auto].
Qed.
Lemma nodes_app l1 l2 : nodes (l1 ++ l2) = nodes l1 ++ nodes l2.
Proof. apply flat_map_app. Qed.
Lemma nodup_app {A} (l1 l2 : list A) : NoDup (l1 ++ l2) <-> NoDup l1 /\ NoDup l2 /\ forall x, In x l1 -> ~ In x l2.
Proof.
  induction l1 as [|x l1 IH]; cbn; [split; [intro H; repeat split; [constructor|exact H|tauto]|tauto]|].
  rewrite !NoDup_cons_iff, IH, in_app_iff. split.
  - intros (H & H1 & H2 & H3). repeat split; [tauto|exact H1|exact H2|]. intros y [<-|Hy]; [tauto|auto].
  - intros ((H & H1) & H2 & H3). repeat split; [|exact H1|exact H2|auto]. intros [Hx|Hx]; [tauto|]. exact (H3 x (or_introl eq_refl) Hx).
Qed.
Lemma get_in ls a xs : get ls a = Some xs -> In (a, xs) ls.
Proof.
  induction ls as [|(b, ys) ls IH]; cbn; [discriminate|]. destruct (N.eqb_spec b a) as [->|]; [intro E; injection E as ->; now left|]. auto.
Qed.
Lemma get_split ls a xs : get ls a = Some xs -> exists l1 l2, ls = l1 ++ (a, xs) :: l2.
Proof. intro H. apply get_in, in_split in H. exact H. Qed.
Lemma in_get ls a xs : NoDup (nodes ls) -> In (a, xs) ls -> get ls a = Some xs.
Proof.
  induction ls as [|(b, ys) ls IH]; [intros _ []|]. cbn [nodes flat_map fst snd]. intros D H. apply nodup_app in D as (D1 & D2 & D3). cbn [get].
  destruct H as [E|H]; [injection E as -> ->; now rewrite N.eqb_refl|]. destruct (N.eqb_spec b a) as [->|]; [|auto].
  exfalso. apply (D3 a); [now left|]. apply nodes_in. exists a, xs. cbn. auto.
Qed.
Lemma unused_spec ls x : unused ls x = true <-> ~ In x (nodes ls).
Proof.
  unfold unused. rewrite negb_true_iff. split.
  - intros H I. enough (existsb (N.eqb x) (nodes ls) = true) by congruence. apply existsb_exists. exists x. split; [exact I|apply N.eqb_refl].
  - intro H. apply not_true_is_false. intro E. apply existsb_exists in E as (y & I & E). apply N.eqb_eq in E as ->. auto.
Qed.
Lemma here_spec x xs : existsb (N.eqb x) xs = true <-> In x xs.
Proof.
  rewrite existsb_exists. split; [intros (y & H & E); apply N.eqb_eq in E as ->; exact H|intro H; exists x; split; [exact H|apply N.eqb_refl]].
Qed.

(* one ring changes, over addresses that no other ring has *)
Lemma change_split l1 a xs l2 g : NoDup (nodes (l1 ++ (a, xs) :: l2)) ->
  change (l1 ++ (a, xs) :: l2) a g = l1 ++ (a, g xs) :: l2.
Proof.
  intro D. unfold change. rewrite map_app. cbn [map fst snd]. rewrite N.eqb_refl. rewrite nodes_app in D. cbn [nodes flat_map fst snd] in D. change (flat_map _ l2) with (nodes l2) in D.
  apply nodup_app in D as (_ & D2 & D3). apply (nodup_app (a :: xs)) in D2 as (D4 & D5 & D6).
  assert (G : forall l, ~ In a (nodes l) -> map (fun r => (fst r, if fst r =? a then g (snd r) else snd r)) l = l).
  { intros l H. transitivity (map (fun r : N * list N => r) l); [|apply map_id]. apply map_ext_in. intros (b, ys) I. cbn [fst snd]. destruct (N.eqb_spec b a) as [->|]; [|reflexivity].
    exfalso. apply H, nodes_in. exists a, ys. cbn. auto. }
  rewrite !G; [reflexivity| |].
  - apply D6. now left.
  - intro I. apply (D3 a I). now left.
Qed.
Lemma world_change h h' ls a xs ys : world h ls -> get ls a = Some xs ->
  (forall y, In y (nodes ls) -> ~ In y (a :: xs) -> h' y = h y) -> chain h' a ys a -> NoDup (a :: ys) ->
  (forall y, In y ys -> In y xs \/ ~ In y (nodes ls)) -> world h' (change ls a (fun _ => ys)).
Proof.
  intros [D C] G F C' D' N'. destruct (get_split _ _ _ G) as (l1 & l2 & ->). rewrite (change_split _ _ _ _ _ D).
  rewrite nodes_app in D. cbn [nodes flat_map fst snd] in D. change (flat_map _ l2) with (nodes l2) in D.
  assert (D0 := D). apply nodup_app in D as (D1 & D2 & D3). apply (nodup_app (a :: xs)) in D2 as (D4 & D5 & D6).
  assert (M : forall y, In y (nodes (l1 ++ (a, xs) :: l2)) <-> In y (nodes l1) \/ In y (a :: xs) \/ In y (nodes l2)).
  { intro y. rewrite nodes_app, in_app_iff. cbn [nodes flat_map fst snd]. change (flat_map _ l2) with (nodes l2). rewrite in_app_iff. tauto. }
  split.
  - rewrite nodes_app. cbn [nodes flat_map fst snd]. change (flat_map _ l2) with (nodes l2). apply nodup_app. split; [exact D1|]. split.
    + apply nodup_app. split; [exact D'|]. split; [exact D5|]. intros y [<-|Hy]; [apply D6; now left|].
      destruct (N' y Hy) as [K|K]; [apply D6; now right|]. rewrite M in K. tauto.
    + intros y Hy. intro I. apply in_app_iff in I as [[<-|I]|I].
      * apply (D3 a Hy). now left.
      * destruct (N' y I) as [K|K]; [|rewrite M in K; tauto]. apply (D3 y Hy). apply in_app_iff. left. now right.
      * apply (D3 y Hy). apply in_app_iff. auto.
  - intros b zs I. apply in_app_iff in I as [I|[E|I]].
    + assert (K : forall y, In y (b :: zs) -> h' y = h y).
      { intros y Hy. assert (Q : In y (nodes l1)) by (apply nodes_in; eauto). apply F; [rewrite M; auto|]. intro I'. apply (D3 y Q). apply in_app_iff. auto. }
      apply chain_frame with h; [apply C, in_app_iff; auto| |]; intros y Hy; rewrite K; auto.
    + injection E as <- <-. exact C'.
    + assert (K : forall y, In y (b :: zs) -> h' y = h y).
      { intros y Hy. assert (Q : In y (nodes l2)) by (apply nodes_in; eauto). apply F; [rewrite M; auto|]. intro I'. apply (D6 y I' Q). }
      apply chain_frame with h; [apply C, in_app_iff; right; now right| |]; intros y Hy; rewrite K; auto.
Qed.
Lemma world_frame h h' ls : world h ls -> (forall y, In y (nodes ls) -> h' y = h y) -> world h' ls.
Proof.
  intros [D C] F. split; [exact D|]. intros a xs I. apply chain_frame with h; [auto| |]; intros y Hy; rewrite F; auto; apply nodes_in; eauto.
Qed.
Lemma world_ring h ls a xs : world h ls -> get ls a = Some xs -> chain h a xs a /\ NoDup (a :: xs).
Proof.
  intros [D C] G. split; [apply C, get_in, G|]. destruct (get_split _ _ _ G) as (l1 & l2 & ->).
  rewrite nodes_app in D. apply nodup_app in D as (_ & D & _). cbn [nodes flat_map fst snd] in D. apply (nodup_app (a :: xs)) in D as (D & _). exact D.
Qed.

(* the writes *)
Ltac upd := unfold set_next, set_prev, overwrite; cbn [next prev].
Lemma init_at h a : list_init h a a = mk_node a a.
Proof. unfold list_init. upd. rewrite !N.eqb_refl. reflexivity. Qed.
Lemma init_other h a y : y <> a -> list_init h a y = h y.
Proof. intro H. unfold list_init. upd. apply N.eqb_neq in H. now rewrite H. Qed.

Ltac eqs := repeat match goal with
  | |- context [?x =? ?x] => rewrite (N.eqb_refl x)
  | H : ?x <> ?y |- context [?x =? ?y] => rewrite (proj2 (N.eqb_neq x y) H)
  | H : ?y <> ?x |- context [?x =? ?y] => rewrite (proj2 (N.eqb_neq x y) (not_eq_sym H))
  end; cbn [next prev].
Ltac dec_all := repeat (match goal with |- context [?u =? ?v] => destruct (N.eqb_spec u v) end; cbn [next prev]); try reflexivity; try congruence.
(* p, the one before a, is a itself in an empty list *)
Lemma append_writes h a x : x <> a -> prev (h a) <> x ->
  let h' := list_append h a x in let p := prev (h a) in
  next (h' p) = x /\ prev (h' x) = p /\ next (h' x) = a /\ prev (h' a) = x /\
  (forall y, y <> p -> y <> x -> next (h' y) = next (h y)) /\ (forall y, y <> a -> y <> x -> prev (h' y) = prev (h y)).
Proof.
  intros Ha Hp. cbv zeta. unfold list_append, set_next, set_prev. set (p := prev (h a)) in *.
  cbn [next prev]. eqs. fold p.
  eqs.
  repeat split; intros; eqs; dec_all.
Qed.
Lemma push_writes h a x : x <> a -> next (h a) <> x ->
  let h' := list_push h a x in let n := next (h a) in
  next (h' a) = x /\ prev (h' x) = a /\ next (h' x) = n /\ prev (h' n) = x /\
  (forall y, y <> a -> y <> x -> next (h' y) = next (h y)) /\ (forall y, y <> n -> y <> x -> prev (h' y) = prev (h y)).
Proof.
  intros Ha Hp. cbv zeta. unfold list_push, set_next, set_prev. set (n := next (h a)) in *. eqs.
  repeat split; intros; eqs; dec_all.
Qed.
Lemma unlink_writes h x : prev (h x) <> x -> next (h x) <> x ->
  let h' := list_unlink h x in let p := prev (h x) in let n := next (h x) in
  next (h' p) = n /\ prev (h' n) = p /\ h' x = h x /\
  (forall y, y <> p -> next (h' y) = next (h y)) /\ (forall y, y <> n -> prev (h' y) = prev (h y)).
Proof.
  intros Ha Hp. cbv zeta. unfold list_unlink, set_next, set_prev. set (p := prev (h x)) in *. set (n := next (h x)) in *. eqs. fold p n.
  repeat split; intros; eqs; dec_all.
Qed.
Lemma eta n : mk_node (next n) (prev n) = n.
Proof. now destruct n. Qed.
Lemma same_node (n m : node) : next n = next m -> prev n = prev m -> n = m.
Proof. destruct n, m; cbn. congruence. Qed.

(* the operations on a ring *)
Lemma ring_append h a xs x : chain h a xs a -> NoDup (a :: xs) -> ~ In x (a :: xs) ->
  let h' := list_append h a x in chain h' a (xs ++ [x]) a /\ forall y, ~ In y (a :: xs) -> y <> x -> h' y = h y.
Proof.
  intros C D F. cbv zeta. destruct (chain_ends _ _ _ _ C) as (_ & E & _). assert (L := lst_in xs a). rewrite <- E in L.
  assert (F1 : x <> a) by (intros ->; apply F; now left). assert (F2 : prev (h a) <> x) by (intros <-; auto).
  destruct (append_writes h a x F1 F2) as (W1 & W2 & W3 & W4 & W5 & W6). split.
  - apply chain_app. split.
    + eapply chain_to; [exact C|exact D| | | |]; rewrite <- ?E; auto.
      * intros y Hy Hn. apply W5; [exact Hn|]. intros ->. auto.
      * intros y Hy. apply W6; [|intros ->; apply F; now right]. intros ->. inversion D; auto.
    + cbn. auto.
  - intros y Hy Hx. apply same_node; [apply W5|apply W6]; auto. intros ->. auto. intros ->. apply Hy. now left.
Qed.
Lemma ring_push h a xs x : chain h a xs a -> NoDup (a :: xs) -> ~ In x (a :: xs) ->
  let h' := list_push h a x in chain h' a (x :: xs) a /\ forall y, ~ In y (a :: xs) -> y <> x -> h' y = h y.
Proof.
  intros C D F. cbv zeta. destruct (chain_ends _ _ _ _ C) as (E & _ & _).
  assert (L : In (next (h a)) (a :: xs)) by (rewrite E; destruct xs; cbn; auto).
  assert (F1 : x <> a) by (intros ->; apply F; now left). assert (F2 : next (h a) <> x) by (intros <-; auto).
  destruct (push_writes h a x F1 F2) as (W1 & W2 & W3 & W4 & W5 & W6). split.
  - cbn [chain]. split; [exact W1|]. split; [exact W2|]. rewrite E in *. destruct xs as [|z xs]; cbn [fst_or chain] in *; [auto|].
    destruct C as (C1 & C2 & C3). split; [exact W3|]. split; [exact W4|]. inversion D as [|? ? D1 D2]; subst. inversion D2 as [|? ? D3 D4]; subst.
    apply chain_frame with h; [exact C3| |]; intros y Hy.
    + apply W5; [intros ->; apply D1; exact Hy|intros ->; apply F; right; exact Hy].
    + apply W6; [intros ->|intros ->; apply F; destruct Hy as [<-|Hy]; [now left|right; now right]].
      destruct Hy as [Hy|Hy]; [apply D1; left; auto|auto].
  - intros y Hy Hx. apply same_node; [apply W5|apply W6]; auto. intros ->. apply Hy. now left. intros ->. auto.
Qed.
Lemma ring_unlink h a l1 x l2 : chain h a (l1 ++ x :: l2) a -> NoDup (a :: l1 ++ x :: l2) ->
  let h' := list_unlink h x in chain h' a (l1 ++ l2) a /\ h' x = h x /\ forall y, ~ In y (a :: l1 ++ x :: l2) -> h' y = h y.
Proof.
  intros C D. cbv zeta. apply chain_app in C as [C1 C2]. destruct (chain_ends _ _ _ _ C1) as (_ & E1 & _). destruct (chain_ends _ _ _ _ C2) as (E2 & _ & _).
  rewrite app_comm_cons in D. apply nodup_app in D as (D1 & D2 & D3). inversion D2 as [|? ? D4 D5]; subst.
  assert (L1 := lst_in l1 a). rewrite <- E1 in L1.
  assert (P1 : prev (h x) <> x) by (intro Q; rewrite Q in L1; apply (D3 x L1); now left).
  assert (L2 : In (next (h x)) l2 \/ next (h x) = a) by (rewrite E2; destruct l2; cbn; auto).
  assert (Hxa : x <> a) by (intros ->; apply (D3 a); now left).
  assert (P2 : next (h x) <> x) by (intro Q; rewrite Q in L2; destruct L2; auto).
  destruct (unlink_writes h x P1 P2) as (W1 & W2 & W3 & W4 & W5). split; [|split; [exact W3|]].
  - assert (A1 : chain (list_unlink h x) a l1 (next (h x))).
    { eapply chain_to; [exact C1|exact D1| | | |]; rewrite <- ?E1; auto. intros y Hy. apply W5. intros ->.
      destruct L2 as [L2|L2]; [apply (D3 (next (h x))); [now right|now right]|]. rewrite L2 in Hy. inversion D1; auto. }
    destruct l2 as [|z l2]; cbn [fst_or] in E2; [rewrite app_nil_r; rewrite E2 in A1; exact A1|].
    apply chain_app. rewrite E2 in *. split; [exact A1|]. destruct C2 as (_ & _ & C2). inversion D5 as [|? ? D6 D7]; subst.
    apply chain_frame with h; [exact C2| |]; intros y Hy.
    + apply W4. intros ->. apply (D3 _ L1). now right.
    + apply W5. intros ->. destruct Hy as [Hy|Hy]; [|auto]. apply (D3 a); [now left|]. rewrite Hy. right. now left.
  - intros y Hy. apply same_node; [apply W4|apply W5]; intros ->; apply Hy; rewrite app_comm_cons; apply in_app_iff; [now left|].
    destruct L2 as [L2| ->]; [right; now right|left; now left].
Qed.
Lemma without_other x xs : ~ In x xs -> without x xs = xs.
Proof.
  induction xs as [|y xs IH]; intro H; [reflexivity|]. cbn in *. destruct (N.eqb_spec y x) as [->|]; [tauto|]. cbn. f_equal. apply IH; tauto.
Qed.
Lemma without_split l1 x l2 : NoDup (l1 ++ x :: l2) -> without x (l1 ++ x :: l2) = l1 ++ l2.
Proof.
  intro D. unfold without. rewrite filter_app. cbn. rewrite N.eqb_refl. cbn. fold (without x l1) (without x l2).
  apply NoDup_remove in D as [_ D]. rewrite in_app_iff in D. rewrite !without_other; tauto.
Qed.

(* what the loops read *)
Lemma foreach_chain h a l : forall z fuel, chain h z l a -> ~ In a l -> (length l < fuel)%nat -> foreach fuel h a (fst_or l a) = Some l.
Proof.
  induction l as [|x l IH]; intros z fuel C F L; (destruct fuel as [|fuel]; [cbn in L; lia|]); cbn [foreach fst_or].
  - now rewrite N.eqb_refl.
  - destruct C as (_ & _ & C). destruct (N.eqb_spec x a) as [->|]; [exfalso; apply F; now left|].
    rewrite (proj1 (chain_ends _ _ _ _ C)), (IH x); [reflexivity|exact C|intro I; apply F; now right|cbn in L; lia].
Qed.
Lemma reverse_chain h a l : forall z fuel, chain h a l z -> ~ In a l -> (length l < fuel)%nat -> foreach_reverse fuel h a (lst a l) = Some (rev l).
Proof.
  induction l as [|x l IH] using rev_ind; intros z fuel C F L; (destruct fuel as [|fuel]; [rewrite ?app_length in L; cbn in L; lia|]); cbn [foreach_reverse lst].
  - now rewrite N.eqb_refl.
  - rewrite lst_app. cbn [lst]. apply chain_app in C as [C1 C2]. destruct (N.eqb_spec x a) as [->|]; [exfalso; apply F, in_app_iff; right; now left|].
    rewrite (proj1 (proj2 (chain_ends _ _ _ _ C1))), (IH x); [now rewrite rev_app_distr|exact C1|intro I; apply F, in_app_iff; now left|rewrite app_length in L; cbn in L; lia].
Qed.
