(* Several requests for one partition, their actions in any order. *)
From Coq Require Import NArith Arith List Bool Lia.
Import ListNotations.
From Verif Require Import Model.Base Model.CloudFiles Spec.CloudFiles Proof.CloudFilesL Proof.CloudFilesH.

Section Index.
Variable idx : bytes -> bytes.

Lemma pop_in x l : forall w ws, nth_error ws w = Some l -> In x (pop w ws) -> In x ws \/ x = tl l.
Proof.
  induction w as [|w IH]; intros [|y ws] H; cbn in *; try discriminate.
  - injection H as ->. intros [<-|I]; auto.
  - intros [<-|I]; auto. destruct (IH ws H I); auto.
Qed.
Lemma drop_rest_in x : forall w ws, In x (drop_rest w ws) -> In x ws \/ x = [].
Proof.
  induction w as [|w IH]; intros [|y ws]; cbn; auto.
  - intros [<-|I]; auto.
  - intros [<-|I]; auto. destruct (IH ws I); auto.
Qed.

Section Run.
Variable su : setup.
Variable rs : list request.
Hypothesis kind : su_drop_local su = false \/ Forall (fun r => ~ refreshes r) rs.

(* what is left of a request *)
Definition safe (m : flags) : Prop := in_id m = true \/ in_cloud m = false.
Definition rest (m : flags) (l : list action) : Prop :=
  l = [] \/ l = [ADropUploaded] \/ l = [AUpload; ADropUploaded] \/ l = [ADownload] \/
  exists b, In (RRefresh b) rs /\ (l = [ARefresh b; AUpload; ADropUploaded] \/ (l = [ADropCloud; ARefresh b; AUpload; ADropUploaded] /\ safe m) \/ l = req_actions (RRefresh b)).
Definition from (c c' : option bytes) : Prop := c' = c \/ exists b, In (RRefresh b) rs /\ c' = Some b.

Lemma no_local b : In (RRefresh b) rs -> su_drop_local su = false.
Proof. destruct kind as [K|K]; auto. intros H. rewrite Forall_forall in K. exfalso. exact (K _ H I). Qed.
(* no action of a request takes the local file away *)
Lemma safe_act s a : su_drop_local su = false -> a <> ADropLocal -> a <> ADropBoth -> safe (p_flags s) -> safe (p_flags (act idx su a s)).
Proof.
  intros K H1 H2 S. unfold safe, act, act_plan in *. destruct s as [[i u] d]. cbn in *.
  destruct a; try congruence; cbn; destruct i, u, (su_cloud su); cbn; rewrite ?K; cbn; auto;
  repeat match goal with |- context [match ?x with Some _ => _ | None => _ end] => destruct x; cbn; auto end.
Qed.
Lemma downloaded_safe s c : settled idx su s c -> safe (p_flags (act idx su ADownload s)).
Proof.
  intros Hs. destruct (downloaded idx su s c Hs) as [H|H]; [now left|]. subst c. right.
  unfold settled in Hs. destruct Hs as [_ [_ [_ [A [B _]]]]]. unfold act, act_plan. rewrite A, B. destruct (su_cloud su); cbn; auto.
Qed.
Lemma rest_act s l a : rest (p_flags s) l -> a <> ADropLocal -> a <> ADropBoth -> rest (p_flags (act idx su a s)) l.
Proof.
  unfold rest. intros R H1 H2. destruct R as [R|[R|[R|[R|[b [B [R|[[R S]|R]]]]]]]]; auto 6.
  - do 4 right. exists b. auto.
  - do 4 right. exists b. split; auto. right. left. split; auto. apply safe_act; auto. exact (no_local b B).
  - do 4 right. exists b. auto.
Qed.
Lemma rest_head s l a : rest (p_flags s) (a :: l) -> a <> ADropLocal /\ a <> ADropBoth.
Proof.
  unfold rest. intros R. destruct R as [R|[R|[R|[R|[b [B [R|[[R S]|R]]]]]]]]; try discriminate; injection R as -> _; split; discriminate.
Qed.
Lemma rest_next s c a l : settled idx su s c -> rest (p_flags s) (a :: l) -> rest (p_flags (act idx su a s)) l.
Proof.
  intros Hs R. unfold rest in R. destruct R as [R|[R|[R|[R|[b [B [R|[[R S]|R]]]]]]]]; try discriminate; injection R as -> ->; unfold rest; auto 6.
  - do 4 right. exists b. auto.
  - do 4 right. exists b. split; auto. right. left. split; auto. exact (downloaded_safe s c Hs).
Qed.
Lemma contents_next s c a l : settled idx su s c -> rest (p_flags s) (a :: l) ->
  let c' := contents_after a (in_id (p_flags s)) (in_cloud (p_flags s)) c in
  (c' = c \/ exists b, In (RRefresh b) rs /\ c' = Some b) /\ (c <> None -> c' <> None).
Proof.
  intros Hs R. unfold rest in R. destruct R as [R|[R|[R|[R|[b [B [R|[[R S]|R]]]]]]]]; try discriminate; injection R as -> ->; cbn; auto.
  - destruct (in_cloud (p_flags s)); split; eauto. discriminate.
  - destruct S as [S|S]; [rewrite S; auto|]. destruct (in_id (p_flags s)) eqn:E; [auto|].
    destruct c as [b0|]; [|auto]. unfold settled in Hs. destruct Hs as [_ [_ [_ [[H|H] _]]]]; congruence.
Qed.
Lemma weaving order : forall s ws c, settled idx su s c -> clear su s -> (forall l, In l ws -> rest (p_flags s) l) ->
  exists c', settled idx su (weave idx su s ws order) c' /\ from c c' /\ (c <> None -> c' <> None).
Proof.
  induction order as [|w order IH]; intros s ws c Hs Hc Hw; cbn.
  - exists c. split; [exact Hs|]. split; [now left|auto].
  - destruct (nth_error ws w) as [[|a l]|] eqn:E; [exact (IH s ws c Hs Hc Hw)| |exact (IH s ws c Hs Hc Hw)].
    assert (R : rest (p_flags s) (a :: l)) by (apply Hw; eapply nth_error_In; exact E).
    destruct (acted idx su s c a Hs Hc) as [A B].
    destruct (rest_head s l a R) as [N1 N2].
    destruct (contents_next s c a l Hs R) as [F G].
    edestruct (IH (act idx su a s) (if act_ok idx su a s then pop w ws else drop_rest w ws) _ A B) as [c' [C [D D']]].
    { intros x I. destruct (act_ok idx su a s).
      - destruct (pop_in x (a :: l) w ws E I) as [J| ->]; [apply rest_act; auto|]. exact (rest_next s c a l Hs R).
      - destruct (drop_rest_in x w ws I) as [J| ->]; [apply rest_act; auto|]. now left. }
    exists c'. split; [exact C|]. split; [|auto].
    destruct D as [-> |D]; [|right; exact D]. destruct F as [F|F]; [left; exact F|right; exact F].
Qed.
Lemma workers order s c : settled idx su s c -> clear su s ->
  exists c', settled idx su (weave idx su s (map req_actions rs) order) c' /\ from c c' /\ (c <> None -> c' <> None).
Proof.
  intros Hs Hc. apply weaving; auto. intros l I. apply in_map_iff in I. destruct I as [r [<- I]]. unfold rest.
  destruct r as [b| |]; cbn; auto 6. do 4 right. exists b. auto.
Qed.
End Run.
End Index.
