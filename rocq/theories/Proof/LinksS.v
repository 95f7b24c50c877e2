(* Every operation on the pointers does what it is meant to do *)
From Coq Require Import NArith ZArith List Bool Lia.
Import ListNotations.
From Verif Require Import Model.Links Spec.Links Proof.LinksL.

Local Open Scope N_scope.

Lemma get_change ls a g b : get (change ls a g) b = if b =? a then option_map g (get ls b) else get ls b.
Proof.
  induction ls as [|(c, ys) ls IH]; cbn; [now destruct (b =? a)|]. destruct (N.eqb_spec c b) as [->|].
  - destruct (b =? a); reflexivity.
  - exact IH.
Qed.
Lemma get_joined f xs ls b : get (joined f xs ls) b = option_map (fun ys => ys ++ filter (goes f b) xs) (get ls b).
Proof.
  induction ls as [|(c, ys) ls IH]; cbn; [reflexivity|]. destruct (N.eqb_spec c b) as [->|]; [reflexivity|exact IH].
Qed.
Lemma get_nodes ls a xs y : get ls a = Some xs -> In y (a :: xs) -> In y (nodes ls).
Proof. intros G H. apply get_in in G. apply nodes_in. eauto. Qed.
Lemma nodes_change_in ls a g y : NoDup (nodes ls) -> In y (nodes (change ls a g)) -> In y (nodes ls) \/ exists xs, get ls a = Some xs /\ In y (g xs).
Proof.
  intros D H. apply nodes_in in H as (b & ys & I & Hy). unfold change in I. apply in_map_iff in I as ((c, zs) & E & I). cbn [fst snd] in E. injection E as <- <-.
  destruct Hy as [<-|Hy]; [left; apply nodes_in; exists c, zs; cbn; auto|]. destruct (N.eqb_spec c a) as [->|].
  - right. exists zs. split; [apply in_get; auto|exact Hy].
  - left. apply nodes_in. exists c, zs. cbn. auto.
Qed.
Lemma change_const ls a xs g : NoDup (nodes ls) -> get ls a = Some xs -> change ls a g = change ls a (fun _ => g xs).
Proof.
  intros D G. unfold change. apply map_ext_in. intros (b, ys) I. cbn [fst snd]. destruct (N.eqb_spec b a) as [->|]; [|reflexivity].
  rewrite (in_get _ _ _ D I) in G. now injection G as ->.
Qed.
Lemma without_const ls a xs x : NoDup (nodes ls) -> get ls a = Some xs -> In x xs ->
  map (fun r => (fst r, without x (snd r))) ls = change ls a (fun _ => without x xs).
Proof.
  intros D G Hx. unfold change. apply map_ext_in. intros (b, ys) I. cbn [fst snd]. destruct (N.eqb_spec b a) as [->|].
  - rewrite (in_get _ _ _ D I) in G. now injection G as ->.
  - f_equal. apply without_other. intro Hy. destruct (get_split _ _ _ G) as (l1 & l2 & ->). rewrite nodes_app in D. cbn [nodes flat_map fst snd] in D. change (flat_map _ l2) with (nodes l2) in D.
    apply nodup_app in D as (D1 & D2 & D3). apply (nodup_app (a :: xs)) in D2 as (D4 & D5 & D6).
    apply in_app_iff in I as [I|[E|I]].
    + apply (D3 x); [apply nodes_in; exists b, ys; cbn; auto|]. apply in_app_iff. left. now right.
    + injection E as -> ->. congruence.
    + apply (D6 x); [now right|]. apply nodes_in. exists b, ys. cbn. auto.
Qed.
Lemma in_list_get ls x : NoDup (nodes ls) -> in_list ls x = true -> exists a xs, get ls a = Some xs /\ In x xs.
Proof.
  intros D H. apply existsb_exists in H as ((a, xs) & I & E). apply here_spec in E. exists a, xs. split; [apply in_get; auto|exact E].
Qed.

(* one operation after the other *)
Lemma world_init h ls a : world h ls -> ~ In a (nodes ls) -> world (list_init h a) ((a, []) :: ls).
Proof.
  intros [D C] F. split.
  - cbn [nodes flat_map fst snd app]. constructor; [exact F|exact D].
  - intros b ys [E|I].
    + injection E as <- <-. cbn. rewrite init_at. auto.
    + assert (K : forall y, In y (b :: ys) -> list_init h a y = h y).
      { intros y Hy. apply init_other. intros ->. apply F, nodes_in. eauto. }
      apply chain_frame with h; [auto| |]; intros y Hy; rewrite K; auto.
Qed.
Lemma forget_nodes ls a y : In y (nodes (forget ls a)) -> In y (nodes ls).
Proof.
  intro H. apply nodes_in in H as (b & ys & I & Hy). apply filter_In in I as [I _]. apply nodes_in. eauto.
Qed.
Lemma forget_nodup ls a : NoDup (nodes ls) -> NoDup (nodes (forget ls a)).
Proof.
  induction ls as [|(b, ys) ls IH]; [auto|]. cbn [forget filter nodes flat_map fst snd]. intro D. apply (nodup_app (b :: ys)) in D as (D1 & D2 & D3).
  destruct (N.eqb_spec b a) as [->|]; cbn [negb]; [auto|]. apply (nodup_app (b :: ys)). split; [exact D1|]. split; [auto|].
  intros y Hy I. apply (D3 y Hy). apply (forget_nodes ls a y I).
Qed.
Lemma world_forget h ls a : world h ls -> world h (forget ls a).
Proof.
  intros [D C]. split; [now apply forget_nodup|]. intros b ys I. apply filter_In in I as [I _]. auto.
Qed.
Lemma get_forget ls a b : b <> a -> get (forget ls a) b = get ls b.
Proof.
  intro H. induction ls as [|(c, ys) ls IH]; [reflexivity|]. cbn [forget filter fst get]. destruct (N.eqb_spec c a) as [->|]; cbn [negb].
  - fold (forget ls a). rewrite IH. destruct (N.eqb_spec a b); [congruence|reflexivity].
  - cbn [get]. fold (forget ls a). now rewrite IH.
Qed.
Lemma forget_gone ls a xs y : NoDup (nodes ls) -> get ls a = Some xs -> In y (a :: xs) -> ~ In y (nodes (forget ls a)).
Proof.
  intros D G Hy I. apply nodes_in in I as (b & ys & I & Hb). apply filter_In in I as [I E]. cbn in E. apply negb_true_iff, N.eqb_neq in E.
  destruct (get_split _ _ _ G) as (l1 & l2 & ->). rewrite nodes_app in D. cbn [nodes flat_map fst snd] in D. change (flat_map _ l2) with (nodes l2) in D.
  apply nodup_app in D as (D1 & D2 & D3). apply (nodup_app (a :: xs)) in D2 as (D4 & D5 & D6).
  apply in_app_iff in I as [I|[Q|I]].
  - apply (D3 y); [apply nodes_in; eauto|]. apply in_app_iff. now left.
  - injection Q as -> ->. congruence.
  - apply (D6 y Hy). apply nodes_in. eauto.
Qed.
Lemma nodup_snoc (a : N) xs x : NoDup (a :: xs) -> ~ In x (a :: xs) -> NoDup (a :: xs ++ [x]).
Proof.
  intros D F. rewrite app_comm_cons. apply nodup_app. split; [exact D|]. split; [repeat constructor; auto|]. intros y Hy [<-|[]]. auto.
Qed.
Lemma world_append h ls a xs x : world h ls -> get ls a = Some xs -> ~ In x (nodes ls) ->
  world (list_append h a x) (change ls a (fun _ => xs ++ [x])).
Proof.
  intros W G F. destruct (world_ring _ _ _ _ W G) as [C D]. assert (F' : ~ In x (a :: xs)) by (intro I; apply F; eapply get_nodes; eauto).
  destruct (ring_append h a xs x C D F') as [R1 R2]. apply world_change with h xs; auto.
  - intros y Hy Hn. apply R2; [exact Hn|]. intros ->. auto.
  - apply nodup_snoc; auto.
  - intros y Hy. apply in_app_iff in Hy as [Hy|[<-|[]]]; auto.
Qed.
Lemma world_push h ls a xs x : world h ls -> get ls a = Some xs -> ~ In x (nodes ls) ->
  world (list_push h a x) (change ls a (fun _ => x :: xs)).
Proof.
  intros W G F. destruct (world_ring _ _ _ _ W G) as [C D]. assert (F' : ~ In x (a :: xs)) by (intro I; apply F; eapply get_nodes; eauto).
  destruct (ring_push h a xs x C D F') as [R1 R2]. apply world_change with h xs; auto.
  - intros y Hy Hn. apply R2; [exact Hn|]. intros ->. auto.
  - inversion D; subst. constructor; [|constructor; auto; intro; apply F'; now right]. intros [<-|I]; [apply F'; now left|auto].
  - intros y [<-|Hy]; auto.
Qed.
Lemma world_unlink h ls a l1 x l2 : world h ls -> get ls a = Some (l1 ++ x :: l2) ->
  world (list_unlink h x) (change ls a (fun _ => l1 ++ l2)) /\ list_unlink h x x = h x /\ ~ In x (nodes (change ls a (fun _ => l1 ++ l2))).
Proof.
  intros W G. destruct (world_ring _ _ _ _ W G) as [C D].
  destruct (ring_unlink h a l1 x l2 C D) as (R1 & R2 & R3).
  assert (W' : world (list_unlink h x) (change ls a (fun _ => l1 ++ l2))).
  { apply world_change with h (l1 ++ x :: l2); auto.
    - rewrite app_comm_cons in *. apply NoDup_remove_1 in D. exact D.
    - intros y Hy. left. apply in_app_iff in Hy. apply in_app_iff. cbn. tauto. }
  split; [exact W'|]. split; [exact R2|]. destruct W as [DN _]. intro I.
  destruct (get_split _ _ _ G) as (k1 & k2 & ->). rewrite (change_split _ _ _ _ _ DN) in I. rewrite nodes_app in *. cbn [nodes flat_map fst snd] in *. change (flat_map _ k2) with (nodes k2) in *.
  apply nodup_app in DN as (D1 & D2 & D3). apply (nodup_app (a :: l1 ++ x :: l2)) in D2 as (D4 & D5 & D6).
  apply in_app_iff in I as [I|I].
  - apply (D3 x I). apply in_app_iff. left. right. apply in_app_iff. right. now left.
  - apply (in_app_iff (a :: l1 ++ l2)) in I as [I|I].
    + rewrite app_comm_cons in D4. apply NoDup_remove_2 in D4. apply D4. exact I.
    + apply (D6 x); [|exact I]. right. apply in_app_iff. right. now left.
Qed.
Lemma world_overwrite h ls x n : world h ls -> ~ In x (nodes ls) -> world (overwrite h x n) ls.
Proof.
  intros W F. apply world_frame with h; [exact W|]. intros y Hy. unfold overwrite. destruct (N.eqb_spec y x) as [->|]; [tauto|reflexivity].
Qed.

(* the loop that takes one element *)
Lemma after_split l1 x l2 : ~ In x l1 -> after x (l1 ++ x :: l2) = l2.
Proof.
  induction l1 as [|y l1 IH]; intro H; cbn; [now rewrite N.eqb_refl|]. destruct (N.eqb_spec y x) as [->|]; [exfalso; apply H; now left|].
  apply IH. intro; apply H; now right.
Qed.
Lemma fetch_loop p h ls a xs : forall fuel l1 l2, world h ls -> get ls a = Some xs -> xs = l1 ++ l2 -> (length l2 < fuel)%nat ->
  foreach_safe (fetch_body p) fuel h a (fst_or l2 a) =
    match find p l2 with
    | Some x => Some (list_unlink h x, firstn (length l2 - length (after x l2)) l2)
    | None => Some (h, l2)
    end.
Proof.
  induction fuel as [|fuel IH]; intros l1 l2 W G E L; [lia|]. destruct (world_ring _ _ _ _ W G) as [C D].
  destruct l2 as [|x l2]; cbn [fst_or foreach_safe find]; [now rewrite N.eqb_refl|].
  rewrite E in C, D. apply chain_app in C as [C1 C2].
  destruct (N.eqb_spec x a) as [->|Hx]; [exfalso; inversion D as [|? ? D1 D2]; apply D1, in_app_iff; right; now left|].
  unfold fetch_body. destruct (p x) eqn:Ep.
  - cbn [after]. rewrite N.eqb_refl. cbn [length]. replace (S (length l2) - length l2)%nat with 1%nat by lia. reflexivity.
  - rewrite (proj1 (chain_ends _ _ _ _ C2)). fold (fetch_body p). rewrite (IH (l1 ++ [x]) l2); auto.
    + destruct (find p l2) as [z|] eqn:Ef; [|reflexivity]. f_equal. f_equal. cbn [after].
      apply find_some in Ef as [F1 F2]. destruct (N.eqb_spec x z) as [->|]; [congruence|]. fold (after z).
      assert (Q : (length (after z l2) <= length l2)%nat).
      { clear. induction l2 as [|y l2 IH]; cbn; [lia|]. destruct (y =? z); [lia|]. fold (after z l2). lia. }
      cbn [length]. change ((fix go xs := match xs with [] => [] | y :: xs0 => if y =? z then xs0 else go xs0 end) l2) with (after z l2). rewrite Nat.sub_succ_l by exact Q. reflexivity.
    + rewrite E, <- app_assoc. reflexivity.
    + cbn in L. lia.
Qed.

(* the loop over all *)
Section Sweep.
Variables (f : N -> fate) (ls : lists) (a : N).
Definition cur (d r : list N) : lists := change (joined f d ls) a (fun _ => filter (keeps f) d ++ r).

Lemma goes_one c x : filter (goes f c) [x] = if goes f c x then [x] else [].
Proof. reflexivity. Qed.
Lemma cur_change d r r' : change (cur d r) a (fun _ => filter (keeps f) d ++ r') = cur d r'.
Proof.
  unfold cur, change, joined. rewrite !map_map. apply map_ext. intros (c, ys). cbn [fst snd]. destruct (c =? a); reflexivity.
Qed.
Lemma cur_keep d x r : f x = Keep -> cur (d ++ [x]) r = cur d (x :: r).
Proof.
  intro E. unfold cur, change, joined. rewrite !map_map. apply map_ext. intros (c, ys). cbn [fst snd]. rewrite !filter_app. cbn [filter].
  unfold keeps at 2, goes at 2. rewrite E. rewrite app_nil_r, <- app_assoc. reflexivity.
Qed.
Lemma cur_drop d x r : (forall b, f x <> Shift b) -> f x <> Keep -> cur (d ++ [x]) r = cur d r.
Proof.
  intros E1 E2. unfold cur, change, joined. rewrite !map_map. apply map_ext. intros (c, ys). cbn [fst snd]. rewrite !filter_app. cbn [filter].
  unfold keeps at 2, goes at 2. destruct (f x) as [| | |b]; [congruence| | |exfalso; eapply E1; eauto]; rewrite !app_nil_r; reflexivity.
Qed.
Lemma cur_shift d x r b : f x = Shift b -> b <> a -> cur (d ++ [x]) r = change (cur d r) b (fun l => l ++ [x]).
Proof.
  intros E Hb. unfold cur, change, joined. rewrite !map_map. apply map_ext. intros (c, ys). cbn [fst snd]. rewrite !filter_app. cbn [filter].
  unfold keeps at 2, goes at 2. rewrite E, app_nil_r. destruct (N.eqb_spec c a) as [->|]; destruct (N.eqb_spec a b) as [|]; try congruence.
  destruct (N.eqb_spec c b) as [->|]; [rewrite N.eqb_refl; now rewrite app_assoc|]. destruct (N.eqb_spec b c); [congruence|]. now rewrite app_nil_r.
Qed.
Lemma cur_get d r : (exists xs, get ls a = Some xs) -> get (cur d r) a = Some (filter (keeps f) d ++ r).
Proof. intros [xs G]. unfold cur. rewrite get_change, N.eqb_refl, get_joined, G. reflexivity. Qed.
Lemma sweep_loop xs : get ls a = Some xs -> forall fuel r d h, world h (cur d r) -> sound ls a f r = true -> ~ In a r -> (length r < fuel)%nat ->
  exists h', foreach_safe (sweep_body f) fuel h a (fst_or r a) = Some (h', r) /\ world h' (cur (d ++ r) []).
Proof.
  intro G. induction fuel as [|fuel IH]; intros r d h W S Na L; [lia|].
  destruct r as [|x r]; cbn [fst_or foreach_safe]; [rewrite N.eqb_refl; exists h; rewrite app_nil_r; auto|].
  destruct (N.eqb_spec x a) as [->|Hx]; [exfalso; apply Na; now left|].
  assert (Gc : get (cur d (x :: r)) a = Some (filter (keeps f) d ++ x :: r)) by (apply cur_get; eauto).
  destruct (world_ring _ _ _ _ W Gc) as [C D]. apply chain_app in C as [_ C2]. rewrite (proj1 (chain_ends _ _ _ _ C2)).
  destruct (world_unlink _ _ _ _ _ _ W Gc) as (U1 & U2 & U3). rewrite cur_change in U1, U3.
  cbn [sound forallb] in S. apply andb_true_iff in S as [S1 S2]. fold (sound ls a f r) in S2.
  assert (Hna : ~ In a r) by (intro; apply Na; now right). assert (Hl : (length r < fuel)%nat) by (cbn in L; lia).
  assert (B : world (fst (sweep_body f h x)) (cur (d ++ [x]) r)).
  { unfold sweep_body. destruct (f x) as [| |n|b] eqn:Ef; cbn [fst].
    - rewrite cur_keep; auto.
    - rewrite cur_drop; [exact U1|intro b; congruence|congruence].
    - rewrite cur_drop; [apply world_overwrite; auto|intro b; congruence|congruence].
    - apply andb_true_iff in S1 as [S1 S3]. apply negb_true_iff, N.eqb_neq in S1. destruct (get ls b) as [ys|] eqn:Gb; [|discriminate].
      rewrite (cur_shift d x r b Ef S1).
      assert (Gb' : get (cur d r) b = Some (ys ++ filter (goes f b) d)).
      { unfold cur. rewrite get_change. destruct (N.eqb_spec b a); [congruence|]. rewrite get_joined, Gb. reflexivity. }
      rewrite (change_const _ _ _ _ (proj1 U1) Gb'). apply world_append; auto. }
  unfold sweep_body at 1. unfold sweep_body in B. cbn [fst] in B. destruct (IH r (d ++ [x]) _ B S2 Hna Hl) as (h' & E & W').
  rewrite E. exists h'. split; [reflexivity|]. rewrite <- app_assoc in W'. exact W'.
Qed.

(* the loop that gives up the list *)
Fixpoint nexts (h : heap) (l : list N) (z : N) : Prop :=
  match l with [] => True | x :: r => next (h x) = fst_or r z /\ nexts h r z end.
Lemma nexts_frame h h' z l : nexts h l z -> (forall y, In y l -> h' y = h y) -> nexts h' l z.
Proof.
  induction l as [|x l IH]; [auto|]. intros [N1 N2] F. split; [rewrite F; [exact N1|now left]|]. apply IH; auto. intros y Hy. apply F. now right.
Qed.
Lemma chain_nexts h l : forall b z, chain h b l z -> nexts h l z.
Proof.
  induction l as [|x l IH]; intros b z C; [exact I|]. destruct C as (_ & _ & C). split; [apply (chain_ends _ _ _ _ C)|eauto].
Qed.
Definition left_of (d : list N) : lists := joined f d (forget ls a).
Lemma left_other d x : (forall b, f x <> Shift b) -> left_of (d ++ [x]) = left_of d.
Proof.
  intro E. unfold left_of, joined. apply map_ext. intros (c, ys). cbn [fst snd]. rewrite filter_app. cbn [filter]. unfold goes at 2.
  destruct (f x); try (now rewrite app_nil_r). exfalso. eapply E; eauto.
Qed.
Lemma left_shift d x b : f x = Shift b -> left_of (d ++ [x]) = change (left_of d) b (fun l => l ++ [x]).
Proof.
  intro E. unfold left_of, change, joined. rewrite map_map. apply map_ext. intros (c, ys). cbn [fst snd]. rewrite filter_app. cbn [filter]. unfold goes at 2. rewrite E.
  destruct (N.eqb_spec c b) as [->|]; [rewrite N.eqb_refl; now rewrite app_assoc|]. destruct (N.eqb_spec b c); [congruence|]. now rewrite app_nil_r.
Qed.
Lemma drain_loop : forall fuel r d h, world h (left_of d) -> sound ls a f r = true -> ~ In a r -> NoDup r ->
  (forall y, In y r -> ~ In y (nodes (left_of d))) -> nexts h r a -> (length r < fuel)%nat ->
  exists h', foreach_safe (drain_body f) fuel h a (fst_or r a) = Some (h', r) /\ world h' (left_of (d ++ r)).
Proof.
  induction fuel as [|fuel IH]; intros r d h W S Na D F X L; [lia|].
  destruct r as [|x r]; cbn [fst_or foreach_safe]; [rewrite N.eqb_refl; exists h; rewrite app_nil_r; auto|].
  destruct (N.eqb_spec x a) as [->|Hx]; [exfalso; apply Na; now left|].
  destruct X as [X1 X2]. rewrite X1. cbn [sound forallb] in S. apply andb_true_iff in S as [S1 S2]. fold (sound ls a f r) in S2.
  assert (Hna : ~ In a r) by (intro; apply Na; now right). assert (Hl : (length r < fuel)%nat) by (cbn in L; lia).
  inversion D as [|? ? D1 D2]; subst.
  assert (Fx : ~ In x (nodes (left_of d))) by (apply F; now left).
  assert (B : world (fst (drain_body f h x)) (left_of (d ++ [x])) /\ (forall y, In y r -> ~ In y (nodes (left_of (d ++ [x])))) /\
    forall y, In y r -> fst (drain_body f h x) y = h y).
  { unfold drain_body. destruct (f x) as [| |n|b] eqn:Ef; cbn [fst].
    - rewrite left_other by (intro; congruence). split; [exact W|]. split; [intros y Hy; apply F; now right|reflexivity].
    - rewrite left_other by (intro; congruence). split; [exact W|]. split; [intros y Hy; apply F; now right|reflexivity].
    - rewrite left_other by (intro; congruence). split; [apply world_overwrite; auto|]. split; [intros y Hy; apply F; now right|].
      intros y Hy. unfold overwrite. destruct (N.eqb_spec y x); [subst; tauto|reflexivity].
    - apply andb_true_iff in S1 as [S1 S3]. apply negb_true_iff, N.eqb_neq in S1. destruct (get ls b) as [ys|] eqn:Gb; [|discriminate].
      rewrite (left_shift d x b Ef).
      assert (Gb' : get (left_of d) b = Some (ys ++ filter (goes f b) d)).
      { unfold left_of. rewrite get_joined, get_forget, Gb by exact S1. reflexivity. }
      assert (W1 : world (list_init h x) (left_of d)).
      { apply world_frame with h; [exact W|]. intros y Hy. apply init_other. intros ->. auto. }
      rewrite (change_const _ _ _ _ (proj1 W) Gb'). split; [apply world_append; auto|]. split.
      + intros y Hy I. apply nodes_change_in in I; [|exact (proj1 W)]. destruct I as [I|(zs & _ & I)]; [apply (F y); [now right|exact I]|].
        apply in_app_iff in I as [I|[<-|[]]]; [|auto]. apply (F y); [now right|]. eapply get_nodes; [exact Gb'|now right].
      + intros y Hy. destruct (world_ring _ _ _ _ W1 Gb') as [C' D'].
        assert (Fx' : ~ In x (b :: ys ++ filter (goes f b) d)) by (intro I; apply Fx; eapply get_nodes; eauto).
        destruct (ring_append _ b _ x C' D' Fx') as [_ R]. assert (Hyx : y <> x) by (intros ->; auto).
        rewrite (R y); [apply init_other; exact Hyx| |exact Hyx]. intro I. apply (F y); [now right|]. eapply get_nodes; eauto. }
  destruct B as (B1 & B2 & B3). unfold drain_body at 1. unfold drain_body in B1, B3. cbn [fst] in B1, B3.
  destruct (IH r (d ++ [x]) _ B1 S2 Hna D2 B2 (nexts_frame _ _ _ _ X2 B3) Hl) as (h' & E & W').
  rewrite E. exists h'. split; [reflexivity|]. rewrite <- app_assoc in W'. exact W'.
Qed.
End Sweep.
