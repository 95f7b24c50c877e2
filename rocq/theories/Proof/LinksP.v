(* Programs over lists, and the iterators of memtables *)
From Coq Require Import NArith ZArith List Bool Lia.
Import ListNotations.
From Verif Require Import Model.Links Spec.Links Proof.LinksL Proof.LinksS.

Local Open Scope N_scope.

Definition news (o : op) : list N := match o with Init a => [a] | Append _ x => [x] | Push _ x => [x] | _ => [] end.
Lemma change_same ls a xs : NoDup (nodes ls) -> get ls a = Some xs -> change ls a (fun _ => xs) = ls.
Proof.
  intros D G. unfold change. rewrite <- (map_id ls) at 2. apply map_ext_in. intros (b, ys) I. cbn [fst snd]. destruct (N.eqb_spec b a) as [->|]; [|reflexivity].
  rewrite (in_get _ _ _ D I) in G. now injection G as ->.
Qed.
Lemma joined_nodes f xs ls y : In y (nodes (joined f xs ls)) -> In y (nodes ls) \/ In y xs.
Proof.
  intro H. apply nodes_in in H as (b & ys & I & Hy). apply in_map_iff in I as ((c, zs) & E & I). cbn [fst snd] in E. injection E as <- <-.
  rewrite app_comm_cons in Hy. apply in_app_iff in Hy as [Hy|Hy]; [left; apply nodes_in; eauto|]. right. apply filter_In in Hy. tauto.
Qed.
Lemma change_nodes ls a l y : In y (nodes (change ls a (fun _ => l))) -> In y (nodes ls) \/ In y l.
Proof.
  intro H. apply nodes_in in H as (b & ys & I & Hy). apply in_map_iff in I as ((c, zs) & E & I). cbn [fst snd] in E. injection E as <- <-.
  destruct Hy as [<-|Hy]; [left; apply nodes_in; exists c, zs; cbn; auto|]. destruct (c =? a); [auto|]. left. apply nodes_in. exists c, zs. cbn. auto.
Qed.
Lemma joined_nil f ls : joined f [] ls = ls.
Proof. unfold joined. rewrite <- (map_id ls) at 2. apply map_ext. intros (c, ys). cbn. now rewrite app_nil_r. Qed.

Lemma step fuel h ls o ls' r : world h ls -> act ls o = Some (ls', r) -> (length (nodes ls) <= fuel)%nat ->
  snd (exec fuel h o) = r /\ world (fst (exec fuel h o)) ls' /\ incl (nodes ls') (news o ++ nodes ls).
Proof.
  intros W A L. assert (D := proj1 W).
  assert (LL : forall a xs, get ls a = Some xs -> (length xs < fuel)%nat).
  { intros a xs G. destruct (get_split _ _ _ G) as (l1 & l2 & ->). rewrite nodes_app, app_length in L. cbn [nodes flat_map fst snd] in L. change (flat_map _ l2) with (nodes l2) in L. rewrite app_length in L. cbn [length] in L. lia. }
  destruct o as [a|a|x n|a x|a x|x|a|a p|a f|a f|a|a x|a|a|a x]; cbn [act exec news app] in *.
  - destruct (unused ls a) eqn:U; [|discriminate]. injection A as <- <-. apply unused_spec in U. split; [reflexivity|]. split; [now apply world_init|].
    cbn. apply incl_refl.
  - destruct (get ls a) as [xs|] eqn:G; [|discriminate]. injection A as <- <-. split; [reflexivity|]. split; [now apply world_forget|]. intros y. apply forget_nodes.
  - destruct (unused ls x) eqn:U; [|discriminate]. injection A as <- <-. apply unused_spec in U. split; [reflexivity|]. split; [now apply world_overwrite|apply incl_refl].
  - destruct (get ls a) as [xs|] eqn:G; [|discriminate]. destruct (unused ls x) eqn:U; [|discriminate]. injection A as <- <-. apply unused_spec in U.
    rewrite (change_const _ _ _ _ D G). split; [reflexivity|]. split; [now apply world_append|]. intros y Hy. apply change_nodes in Hy as [Hy|Hy]; [now right|].
    apply in_app_iff in Hy as [Hy|[<-|[]]]; [|now left]. right. eapply get_nodes; [exact G|now right].
  - destruct (get ls a) as [xs|] eqn:G; [|discriminate]. destruct (unused ls x) eqn:U; [|discriminate]. injection A as <- <-. apply unused_spec in U.
    rewrite (change_const _ _ _ _ D G). split; [reflexivity|]. split; [now apply world_push|]. intros y Hy. apply change_nodes in Hy as [Hy|Hy]; [now right|].
    destruct Hy as [<-|Hy]; [now left|]. right. eapply get_nodes; [exact G|now right].
  - destruct (in_list ls x) eqn:U; [|discriminate]. injection A as <- <-. apply in_list_get in U as (a & xs & G & Hx); [|exact D].
    rewrite (without_const _ _ _ _ D G Hx). split; [reflexivity|]. apply in_split in Hx as (l1 & l2 & ->).
    destruct (world_ring _ _ _ _ W G) as [_ D']. inversion D' as [|? ? D1 D2]; subst. rewrite (without_split _ _ _ D2). split; [apply (world_unlink _ _ _ _ _ _ W G)|].
    intros y Hy. apply change_nodes in Hy as [Hy|Hy]; [exact Hy|]. eapply get_nodes; [exact G|]. right. apply in_app_iff in Hy. apply in_app_iff. cbn. tauto.
  - destruct (get ls a) as [[|x xs]|] eqn:G; [| |discriminate]; injection A as <- <-; destruct (world_ring _ _ _ _ W G) as [C D']; unfold list_pop; cbn [fst snd].
    + destruct C as [C1 C2]. rewrite C1. split; [reflexivity|]. split; [|apply incl_refl]. apply world_frame with h; [exact W|]. intros y Hy.
      unfold list_unlink, set_next, set_prev. rewrite C2, C1. rewrite !N.eqb_refl. cbn [next prev]. rewrite ?C1, ?C2. rewrite ?N.eqb_refl. cbn [next prev].
      destruct (N.eqb_spec y a) as [->|]; [|reflexivity]. cbn [next prev]. destruct (h a); cbn in *; congruence.
    + destruct C as (C1 & _ & _). rewrite C1. split; [reflexivity|]. split; [apply (world_unlink h ls a [] x xs W G)|].
      intros y Hy. apply change_nodes in Hy as [Hy|Hy]; [exact Hy|]. eapply get_nodes; [exact G|]. right. now right.
  - destruct (get ls a) as [xs|] eqn:G; [|discriminate]. destruct (world_ring _ _ _ _ W G) as [C D']. rewrite (proj1 (chain_ends _ _ _ _ C)).
    rewrite (fetch_loop p h ls a xs fuel [] xs W G eq_refl (LL _ _ G)). destruct (find p xs) as [x|] eqn:F; injection A as <- <-; cbn [swept fst snd].
    + apply find_some in F as [Hx _]. rewrite (change_const _ _ _ _ D G). apply in_split in Hx as (l1 & l2 & ->). inversion D' as [|? ? D1 D2]; subst. rewrite (without_split _ _ _ D2).
      split; [reflexivity|]. split; [apply (world_unlink _ _ _ _ _ _ W G)|].
      intros y Hy. apply change_nodes in Hy as [Hy|Hy]; [exact Hy|]. eapply get_nodes; [exact G|]. right. apply in_app_iff in Hy. apply in_app_iff. cbn. tauto.
    + split; [reflexivity|]. split; [exact W|apply incl_refl].
  - destruct (get ls a) as [xs|] eqn:G; [|discriminate]. destruct (sound ls a f xs) eqn:S; [|discriminate]. injection A as <- <-.
    destruct (world_ring _ _ _ _ W G) as [C D']. rewrite (proj1 (chain_ends _ _ _ _ C)). inversion D' as [|? ? D1 D2]; subst.
    assert (W0 : world h (cur f ls a [] xs)) by (unfold cur; rewrite joined_nil; cbn [filter app]; rewrite change_same; auto).
    destruct (sweep_loop f ls a xs G fuel xs [] h W0 S D1 (LL _ _ G)) as (h' & E & W'). rewrite E. cbn [swept fst snd app] in *. split; [reflexivity|].
    unfold cur in W'. rewrite app_nil_r in W'. split; [exact W'|]. intros y Hy. apply change_nodes in Hy as [Hy|Hy].
    + apply joined_nodes in Hy as [Hy|Hy]; [exact Hy|]. eapply get_nodes; [exact G|now right].
    + apply filter_In in Hy as [Hy _]. eapply get_nodes; [exact G|now right].
  - destruct (get ls a) as [xs|] eqn:G; [|discriminate]. destruct (sound ls a f xs) eqn:S; [|discriminate]. injection A as <- <-.
    destruct (world_ring _ _ _ _ W G) as [C D']. rewrite (proj1 (chain_ends _ _ _ _ C)). inversion D' as [|? ? D1 D2]; subst.
    assert (W0 : world h (left_of f ls a [])) by (unfold left_of; rewrite joined_nil; now apply world_forget).
    destruct (drain_loop f ls a fuel xs [] h W0 S D1 D2) as (h' & E & W').
    + intros y Hy. unfold left_of. rewrite joined_nil. apply (forget_gone ls a xs); auto. now right.
    + eapply chain_nexts; eauto.
    + exact (LL _ _ G).
    + rewrite E. cbn [swept fst snd app] in *. split; [reflexivity|]. split; [exact W'|]. intros y Hy. apply joined_nodes in Hy as [Hy|Hy]; [eapply forget_nodes; eauto|]. eapply get_nodes; [exact G|now right].
  - destruct (get ls a) as [xs|] eqn:G; [|discriminate]. injection A as <- <-. destruct (world_ring _ _ _ _ W G) as [C D']. cbn [fst snd]. split; [|split; [exact W|apply incl_refl]].
    f_equal. unfold list_empty. destruct (chain_ends _ _ _ _ C) as (E1 & E2 & _). rewrite E1, E2. inversion D' as [|? ? D1 D2]; subst. destruct xs as [|x xs]; cbn [fst_or lst].
    + now rewrite N.eqb_refl.
    + destruct (N.eqb_spec x a) as [->|]; [exfalso; apply D1; now left|reflexivity].
  - destruct (get ls a) as [xs|] eqn:G; [|discriminate]. destruct (existsb (N.eqb x) xs) eqn:U; [|discriminate]. injection A as <- <-. apply here_spec in U.
    destruct (world_ring _ _ _ _ W G) as [C D']. cbn [fst snd]. split; [|split; [exact W|apply incl_refl]]. inversion D' as [|? ? D1 D2]; subst.
    apply in_split in U as (l1 & l2 & ->). apply NoDup_remove_2 in D2 as D3. rewrite after_split by (intro; apply D3, in_app_iff; auto).
    apply chain_app in C as [_ C]. unfold list_is_last. rewrite (proj1 (chain_ends _ _ _ _ C)). f_equal. destruct l2 as [|z l2]; cbn [fst_or]; [apply N.eqb_refl|].
    destruct (N.eqb_spec z a) as [->|]; [|reflexivity]. exfalso. apply D1, in_app_iff. right. right. now left.
  - destruct (get ls a) as [xs|] eqn:G; [|discriminate]. injection A as <- <-. destruct (world_ring _ _ _ _ W G) as [C D']. cbn [fst snd]. split; [|split; [exact W|apply incl_refl]].
    rewrite (proj1 (chain_ends _ _ _ _ C)). inversion D' as [|? ? D1 D2]; subst. rewrite (foreach_chain h a xs a fuel C D1 (LL _ _ G)). reflexivity.
  - destruct (get ls a) as [xs|] eqn:G; [|discriminate]. injection A as <- <-. destruct (world_ring _ _ _ _ W G) as [C D']. cbn [fst snd]. split; [|split; [exact W|apply incl_refl]].
    rewrite (proj1 (proj2 (chain_ends _ _ _ _ C))). inversion D' as [|? ? D1 D2]; subst. rewrite (reverse_chain h a xs a fuel C D1 (LL _ _ G)). reflexivity.
  - destruct (get ls a) as [xs|] eqn:G; [|discriminate]. destruct (existsb (N.eqb x) xs) eqn:U; [|discriminate]. injection A as <- <-. apply here_spec in U.
    destruct (world_ring _ _ _ _ W G) as [C D']. cbn [fst snd]. split; [|split; [exact W|apply incl_refl]]. inversion D' as [|? ? D1 D2]; subst. assert (K := LL _ _ G).
    apply in_split in U as (l1 & l2 & ->). apply NoDup_remove_2 in D2 as D3. rewrite after_split by (intro; apply D3, in_app_iff; auto).
    apply chain_app in C as [_ C]. rewrite (proj1 (chain_ends _ _ _ _ C)), (foreach_chain h a l2 x fuel C); [reflexivity|intro; apply D1, in_app_iff; right; now right|].
    rewrite app_length in K. cbn in K. lia.
Qed.
Lemma steps os : forall fuel h ls ls' rs, world h ls -> act_all ls os = Some (ls', rs) -> (length (nodes ls) + length os <= fuel)%nat ->
  snd (exec_all fuel h os) = rs /\ world (fst (exec_all fuel h os)) ls'.
Proof.
  induction os as [|o os IH]; intros fuel h ls ls' rs W A L; cbn [act_all exec_all] in *; [injection A as <- <-; auto|].
  destruct (act ls o) as [[ls1 r]|] eqn:A1; [|discriminate]. destruct (act_all ls1 os) as [[ls2 rs2]|] eqn:A2; [|discriminate]. injection A as <- <-.
  cbn [length] in L. destruct (step fuel h ls o ls1 r W A1 ltac:(lia)) as (S1 & S2 & S3). destruct (exec fuel h o) as [h1 r1]. cbn [fst snd] in *.
  assert (Q : (length (nodes ls1) <= S (length (nodes ls)))%nat).
  { apply NoDup_incl_length in S3; [|exact (proj1 S2)]. rewrite app_length in S3. assert (length (news o) <= 1)%nat by (destruct o; cbn; lia). lia. }
  destruct (IH fuel h1 ls1 ls2 rs2 S2 A2 ltac:(lia)) as [I1 I2]. destruct (exec_all fuel h1 os) as [h2 rs1]. cbn [fst snd] in *. subst. auto.
Qed.
Theorem lists_meant fuel h os ls rs : act_all [] os = Some (ls, rs) -> (length os <= fuel)%nat -> snd (exec_all fuel h os) = rs.
Proof.
  intros A L. refine (proj1 (steps os fuel h [] ls rs _ A L)). split; [constructor|intros a xs []].
Qed.

(* unlinked twice *)
Lemma unlink_again h x : prev (h x) <> x -> next (h x) <> x -> forall y, list_unlink (list_unlink h x) x y = list_unlink h x y.
Proof.
  intros Hp Hn y. destruct (unlink_writes h x Hp Hn) as (W1 & W2 & W3 & W4 & W5). set (h' := list_unlink h x) in *.
  destruct (unlink_writes h' x) as (V1 & V2 & V3 & V4 & V5); rewrite ?W3 in *; auto.
  apply same_node.
  - destruct (N.eq_dec y (prev (h x))) as [->|]; [congruence|]. apply V4; auto.
  - destruct (N.eq_dec y (next (h x))) as [->|]; [congruence|]. apply V5; auto.
Qed.
Lemma exec_app fuel a : forall h b, exec_all fuel h (a ++ b) = (fst (exec_all fuel (fst (exec_all fuel h a)) b), snd (exec_all fuel h a) ++ snd (exec_all fuel (fst (exec_all fuel h a)) b)).
Proof.
  induction a as [|o a IH]; intros h b; cbn [app exec_all fst snd]; [now destruct (exec_all fuel h b)|].
  destruct (exec fuel h o) as [h1 r]. rewrite IH. destruct (exec_all fuel h1 a) as [h2 rs]. reflexivity.
Qed.
Lemma act_app a : forall ls b, act_all ls (a ++ b) = match act_all ls a with Some (ls1, r1) => match act_all ls1 b with Some (ls2, r2) => Some (ls2, r1 ++ r2) | None => None end | None => None end.
Proof.
  induction a as [|o a IH]; intros ls b; cbn [app act_all]; [now destruct (act_all ls b) as [[]|]|].
  destruct (act ls o) as [[ls1 r]|]; [|reflexivity]. rewrite IH. destruct (act_all ls1 a) as [[ls2 rs]|]; [|reflexivity]. destruct (act_all ls2 b) as [[]|]; reflexivity.
Qed.
Lemma act_size os : forall h ls ls' rs fuel, world h ls -> act_all ls os = Some (ls', rs) -> (length (nodes ls) + length os <= fuel)%nat -> (length (nodes ls') <= length (nodes ls) + length os)%nat.
Proof.
  induction os as [|o os IH]; intros h ls ls' rs fuel W A L; cbn [act_all length] in *; [injection A as <- <-; lia|].
  destruct (act ls o) as [[ls1 r]|] eqn:A1; [|discriminate]. destruct (act_all ls1 os) as [[ls2 rs2]|] eqn:A2; [|discriminate]. injection A as <- <-.
  destruct (step fuel h ls o ls1 r W A1 ltac:(lia)) as (S1 & S2 & S3).
  assert (Q : (length (nodes ls1) <= S (length (nodes ls)))%nat).
  { apply NoDup_incl_length in S3; [|exact (proj1 S2)]. rewrite app_length in S3. assert (length (news o) <= 1)%nat by (destruct o; cbn; lia). lia. }
  specialize (IH _ _ _ _ fuel S2 A2 ltac:(lia)). lia.
Qed.
Theorem unlinked_twice fuel h os x os' ls r1 r2 : act_all [] (os ++ [Unlink x]) = Some (ls, r1) -> (exists ls', act_all ls os' = Some (ls', r2)) ->
  (length os + length os' + 1 <= fuel)%nat ->
  snd (exec_all fuel h (os ++ [Unlink x; Unlink x] ++ os')) = r1 ++ None_ :: r2.
Proof.
  intros A [ls' A'] L. assert (W0 : world h []) by (split; [constructor|intros a xs []]).
  rewrite act_app in A. destruct (act_all [] os) as [[ls1 q1]|] eqn:A1; [|discriminate]. cbn [act_all] in A. destruct (act ls1 (Unlink x)) as [[ls2 q2]|] eqn:A2; [|discriminate]. injection A as <- <-.
  destruct (steps os fuel h [] ls1 q1 W0 A1 ltac:(cbn; lia)) as [S1 S2]. assert (Z := act_size os h [] ls1 q1 fuel W0 A1 ltac:(cbn; lia)). cbn [nodes flat_map length] in Z.
  rewrite exec_app. cbn [snd]. rewrite S1, <- app_assoc. f_equal. set (h1 := fst (exec_all fuel h os)) in *. cbn [app exec_all exec].
  destruct (step fuel h1 ls1 (Unlink x) ls2 q2 S2 A2 ltac:(lia)) as (T1 & T2 & T3). cbn [exec fst snd] in T1, T2.
  cbn [act] in A2. destruct (in_list ls1 x) eqn:U; [|discriminate]. apply in_list_get in U as (a & xs & G & Hx); [|exact (proj1 S2)].
  destruct (world_ring _ _ _ _ S2 G) as [C D]. apply in_split in Hx as (l1 & l2 & ->).
  assert (N1 : prev (h1 x) <> x /\ next (h1 x) <> x).
  { apply chain_app in C as [C1 C2]. rewrite (proj1 (proj2 (chain_ends _ _ _ _ C1))), (proj1 (chain_ends _ _ _ _ C2)). rewrite app_comm_cons in D. apply NoDup_remove_2 in D. split; intro Q; apply D.
    - apply in_app_iff. left. rewrite <- Q. apply lst_in.
    - destruct l2; cbn [fst_or] in Q; subst; [now left|]. rewrite <- app_comm_cons. right. apply in_app_iff. right. now left. }
  assert (T4 : world (list_unlink (list_unlink h1 x) x) ls2) by (apply world_frame with (list_unlink h1 x); [exact T2|]; intros y _; apply unlink_again; apply N1).
  assert (K : (length (nodes ls2) <= length (nodes ls1))%nat) by (apply NoDup_incl_length in T3; [exact T3|exact (proj1 T2)]).
  destruct (steps os' fuel _ ls2 ls' r2 T4 A' ltac:(lia)) as [R1 R2].
  destruct (exec_all fuel (list_unlink (list_unlink h1 x) x) os') as [h3 q3]. cbn [snd app] in *. subst. reflexivity.
Qed.

(* iterators *)
Record fine (s : itables) (ts : attached) (made : list N) : Prop := mk_fine {
  fi_world : world (it_heap s) ts;
  fi_made : NoDup made;
  fi_loose : forall i, In i made -> in_list ts i = false -> it_heap s i = mk_node i i;
  fi_in : forall m xs i, get ts m = Some xs -> In i xs -> In i made /\ it_memtable s i = m;
  fi_head : forall m xs, get ts m = Some xs -> ~ In m made /\ it_count s m = Z.of_nat (length xs) }.
Lemma in_list_false ts i : in_list ts i = false <-> forall m xs, In (m, xs) ts -> ~ In i xs.
Proof.
  split.
  - intros E m xs I H. enough (in_list ts i = true) by congruence. apply existsb_exists. exists (m, xs). split; [exact I|]. now apply here_spec.
  - intro H. apply not_true_is_false. intro E. apply existsb_exists in E as ((m, xs) & I & E). apply here_spec in E. exact (H _ _ I E).
Qed.
Lemma here_false x xs : existsb (N.eqb x) xs = false <-> ~ In x xs.
Proof. rewrite <- here_spec. split; [congruence|apply not_true_is_false]. Qed.

Lemma istep s ts made o ts' made' : fine s ts made -> iact ts made o = Some (ts', made') -> exists s', iexec s o = Some s' /\ fine s' ts' made'.
Proof.
  intros [W M Lo I Hd] A. assert (D := proj1 W). destruct o as [m|i|i m e at_|i]; cbn [iact iexec] in *.
  - destruct (unused ts m && negb (existsb (N.eqb m) made)) eqn:U; [|discriminate]. injection A as <- <-. apply andb_true_iff in U as [U1 U2].
    apply unused_spec in U1. apply negb_true_iff, here_false in U2. eexists. split; [reflexivity|]. constructor; cbn [it_heap it_count it_memtable table_init].
    + now apply world_init.
    + exact M.
    + intros i Hi E. cbn in E. rewrite init_other by (intros ->; auto). auto.
    + intros n xs i G Hi. cbn [get] in G. destruct (m =? n); [injection G as <-; destruct Hi|eauto].
    + intros n xs G. cbn [get] in G. destruct (N.eqb_spec m n) as [->|].
      * injection G as <-. rewrite N.eqb_refl. auto.
      * destruct (N.eqb_spec n m); [congruence|]. eauto.
  - destruct (unused ts i && negb (existsb (N.eqb i) made)) eqn:U; [|discriminate]. injection A as <- <-. apply andb_true_iff in U as [U1 U2].
    apply unused_spec in U1. apply negb_true_iff, here_false in U2. eexists. split; [reflexivity|]. constructor; cbn [it_heap it_count it_memtable iterator_init].
    + apply world_frame with (it_heap s); [exact W|]. intros y Hy. apply init_other. intros ->. auto.
    + constructor; auto.
    + intros j [<-|Hj] E; [apply init_at|]. rewrite init_other by (intros ->; auto). auto.
    + intros n xs j G Hj. destruct (I _ _ _ G Hj) as [I1 I2]. split; [now right|]. destruct (N.eqb_spec j i) as [->|]; [tauto|exact I2].
    + intros n xs G. destruct (Hd _ _ G) as [H1 H2]. split; [|exact H2]. intros [<-|H]; [|auto]. apply U1. eapply get_nodes; [exact G|now left].
  - destruct (get ts m) as [xs|] eqn:G; [|discriminate]. destruct (existsb (N.eqb i) made && negb (in_list ts i)) eqn:U; [|discriminate]. injection A as <- <-. apply andb_true_iff in U as [U1 U2].
    apply here_spec in U1. apply negb_true_iff in U2. assert (U3 := proj1 (in_list_false _ _) U2).
    assert (Un : ~ In i (nodes ts)).
    { intro Q. apply nodes_in in Q as (n & ys & Q & [<-|Hi]); [|exact (U3 _ _ Q Hi)]. apply in_get in Q; [|exact D]. destruct (Hd _ _ Q). auto. }
    assert (F0 : fine (mk_itables (it_heap s) (it_count s) (fun j => if j =? i then m else it_memtable s j)) ts made).
    { constructor; cbn [it_heap it_count it_memtable]; auto. intros n ys j G' Hj. destruct (I _ _ _ G' Hj) as [I1 I2]. split; [exact I1|].
      destruct (N.eqb_spec j i) as [->|]; [exfalso; apply Un; eapply get_nodes; [exact G'|now right]|exact I2]. }
    unfold iterator_open. destruct e; cbn [negb andb]; [eexists; split; [reflexivity|exact F0]|]. destruct at_; [|eexists; split; [reflexivity|exact F0]].
    eexists. split; [reflexivity|]. rewrite (change_const _ _ _ _ D G). constructor; cbn [it_heap it_count it_memtable].
    + now apply world_append.
    + exact M.
    + intros j Hj E. assert (E' := proj1 (in_list_false _ _) E).
      assert (Hji : j <> i).
      { intros ->. apply (E' m (xs ++ [i])); [|apply in_app_iff; right; now left]. apply get_in. rewrite get_change, N.eqb_refl, G. reflexivity. }
      assert (El : in_list ts j = false).
      { apply in_list_false. intros n ys Hn Hy. apply in_get in Hn; [|exact D]. destruct (N.eq_dec n m) as [->|Hnm].
        - apply (E' m (xs ++ [i])); [apply get_in; rewrite get_change, N.eqb_refl, G; reflexivity|]. rewrite G in Hn. injection Hn as <-. apply in_app_iff. now left.
        - apply (E' n ys); [|exact Hy]. apply get_in. rewrite get_change. destruct (N.eqb_spec n m); [congruence|exact Hn]. }
      destruct (world_ring _ _ _ _ W G) as [C' D']. assert (Ui : ~ In i (m :: xs)) by (intro Q; apply Un; eapply get_nodes; eauto).
      destruct (ring_append (it_heap s) m xs i C' D' Ui) as [_ R]. rewrite (R j); [apply Lo; auto| |exact Hji].
      intros [<-|Q]; [destruct (Hd _ _ G); auto|]. apply (proj1 (in_list_false _ _) El m xs); [now apply get_in|exact Q].
    + intros n ys j G' Hj. rewrite get_change in G'. destruct (N.eqb_spec n m) as [->|].
      * rewrite G in G'. cbn in G'. injection G' as <-. apply in_app_iff in Hj as [Hj|[<-|[]]]; [|rewrite N.eqb_refl; auto].
        destruct (I _ _ _ G Hj) as [I1 I2]. split; [exact I1|]. destruct (N.eqb_spec j i); auto.
      * destruct (I _ _ _ G' Hj) as [I1 I2]. split; [exact I1|]. destruct (N.eqb_spec j i) as [->|]; [exfalso; apply Un; eapply get_nodes; [exact G'|now right]|exact I2].
    + intros n ys G'. rewrite get_change in G'. destruct (N.eqb_spec n m) as [->|].
      * rewrite G in G'. cbn in G'. injection G' as <-. destruct (Hd _ _ G) as [H1 H2]. split; [exact H1|]. rewrite H2, app_length. cbn [length]. lia.
      * auto.
  - destruct (existsb (N.eqb i) made) eqn:U; [|discriminate]. injection A as <- <-. apply here_spec in U. unfold iterator_close.
    destruct (in_list ts i) eqn:El.
    + destruct (in_list_get _ _ D El) as (m & xs & G & Hi). destruct (I _ _ _ G Hi) as [_ I2]. destruct (Hd _ _ G) as [H1 H2].
      rewrite (without_const _ _ _ _ D G Hi). apply in_split in Hi as (l1 & l2 & ->). destruct (world_ring _ _ _ _ W G) as [C' D'].
      destruct (world_unlink _ _ _ _ _ _ W G) as (U1 & U2 & U3). destruct (ring_unlink _ _ _ _ _ C' D') as (_ & _ & R). cbv zeta in R.
      assert (Ne : list_empty (it_heap s) i = false).
      { unfold list_empty. apply chain_app in C' as [C1 C2]. rewrite (proj1 (chain_ends _ _ _ _ C2)). apply NoDup_cons_iff in D' as [D1 D2].
        destruct (N.eqb_spec (fst_or l2 m) i) as [Q|]; [|reflexivity]. exfalso. destruct l2 as [|z l2]; cbn in Q.
        - subst m. apply D1, in_app_iff. right. now left.
        - subst z. apply NoDup_remove_2 in D2. apply D2, in_app_iff. right. now left. }
      inversion D' as [|? ? D1 D2]; subst. rewrite (without_split _ _ _ D2).
      rewrite Ne. cbn [negb]. rewrite app_length in H2. cbn [length] in H2. rewrite H2. set (c := (Z.of_nat (length l1 + S (length l2)) - 1)%Z).
      destruct (Z.ltb_spec c 0) as [B|B]; [lia|]. eexists. split; [reflexivity|]. constructor; cbn [it_heap it_count it_memtable iterator_init].
      * apply world_frame with (list_unlink (it_heap s) i); [exact U1|]. intros y Hy. apply init_other. intros ->. auto.
      * exact M.
      * intros j Hj E. destruct (N.eq_dec j i) as [->|Hji]; [apply init_at|]. rewrite init_other by exact Hji. assert (E' := proj1 (in_list_false _ _) E).
        assert (Q : in_list ts j = false).
        { apply in_list_false. intros n ys Hn Hy. apply in_get in Hn; [|exact D]. destruct (N.eq_dec n (it_memtable s i)) as [->|Hnm].
          - rewrite G in Hn. injection Hn as <-. apply (E' (it_memtable s i) (l1 ++ l2)); [apply get_in; rewrite get_change, N.eqb_refl, G; reflexivity|].
            apply in_app_iff in Hy. apply in_app_iff. cbn in Hy. destruct Hy as [Hy|[Hy|Hy]]; auto. congruence.
          - apply (E' n ys); [|exact Hy]. apply get_in. rewrite get_change. destruct (N.eqb_spec n (it_memtable s i)); [congruence|exact Hn]. }
        rewrite R; [auto|]. intros [<-|Hq]; [auto|]. apply (proj1 (in_list_false _ _) Q (it_memtable s i) (l1 ++ i :: l2)); [now apply get_in|exact Hq].
      * intros n ys j G' Hj. assert (Hji : j <> i) by (intros ->; apply U3; eapply get_nodes; [exact G'|now right]).
        destruct (N.eqb_spec j i); [congruence|]. rewrite get_change in G'. destruct (N.eqb_spec n (it_memtable s i)) as [->|].
        -- rewrite G in G'. cbn in G'. injection G' as <-. eapply I; [exact G|]. apply in_app_iff in Hj. apply in_app_iff. cbn. tauto.
        -- eapply I; eauto.
      * intros n ys G'. rewrite get_change in G'. destruct (N.eqb_spec n (it_memtable s i)) as [->|].
        -- rewrite G in G'. cbn in G'. injection G' as <-. split; [exact H1|]. rewrite app_length. unfold c. lia.
        -- auto.
    + assert (E' := proj1 (in_list_false _ _) El). assert (Ei : it_heap s i = mk_node i i) by auto.
      assert (Em : list_empty (it_heap s) i = true) by (unfold list_empty; rewrite Ei; cbn; now rewrite N.eqb_refl).
      rewrite Em. cbn [negb]. eexists. split; [reflexivity|].
      assert (Q : map (fun r => (fst r, without i (snd r))) ts = ts).
      { rewrite <- (map_id ts) at 2. apply map_ext_in. intros (n, ys) Hn. cbn [fst snd]. rewrite without_other; [reflexivity|]. eauto. }
      rewrite Q. assert (Hm : forall y, list_init (it_heap s) i y = it_heap s y).
      { intro y. destruct (N.eq_dec y i) as [->|]; [rewrite init_at; auto|now apply init_other]. }
      constructor; cbn [it_heap it_count it_memtable iterator_init]; auto.
      * apply world_frame with (it_heap s); auto.
      * intros j Hj E. rewrite Hm. auto.
      * intros n ys j G Hj. destruct (I _ _ _ G Hj) as [I1 I2]. split; [exact I1|]. destruct (N.eqb_spec j i) as [->|]; [|exact I2].
        exfalso. apply (E' n ys); [now apply get_in|exact Hj].
Qed.
Lemma isteps os : forall s ts made ts' made', fine s ts made -> iact_all ts made os = Some (ts', made') -> exists s', iexec_all s os = Some s' /\ fine s' ts' made'.
Proof.
  induction os as [|o os IH]; intros s ts made ts' made' F A; cbn [iact_all iexec_all] in *; [injection A as <- <-; eauto|].
  destruct (iact ts made o) as [[ts1 made1]|] eqn:A1; [|discriminate]. destruct (istep _ _ _ _ _ _ F A1) as (s1 & -> & F1). eauto.
Qed.
Theorem told_all s os ts made : iact_all [] [] os = Some (ts, made) ->
  exists s', iexec_all s os = Some s' /\
  forall m xs, get ts m = Some xs -> it_count s' m = Z.of_nat (length xs) /\ forall fuel, (length xs < fuel)%nat -> synced fuel s' m = Some xs.
Proof.
  intro A. assert (F : fine s [] []).
  { constructor; cbn; try discriminate; [split; [constructor|intros a xs []]|constructor|intros i []]. }
  destruct (isteps _ _ _ _ _ _ F A) as (s' & E & [W M Lo I Hd]). exists s'. split; [exact E|]. intros m xs G. destruct (Hd _ _ G) as [_ C]. split; [exact C|].
  intros fuel L. unfold synced. rewrite C. destruct (world_ring _ _ _ _ W G) as [K D]. destruct xs as [|x xs]; [reflexivity|].
  destruct (Z.ltb_spec 0 (Z.of_nat (length (x :: xs)))) as [_|B]; [|cbn [length] in B; lia].
  inversion D as [|? ? D1 D2]; subst. rewrite (proj1 (chain_ends _ _ _ _ K)). now apply foreach_chain with m.
Qed.
