(* Batches of several threads: theorems and witnesses. *)
From Coq Require Import NArith ZArith Arith List Bool Lia Sorted.
Import ListNotations.
From Verif Require Import Model.Base Model.Event Model.Batches Spec.Batches Proof.BatchesL Proof.BatchesP.

Section Batches.
Variable refs0 : Z.
Variable part : N -> N.
Hypothesis R01 : refs0 = 0%Z \/ refs0 = 1%Z.
Notation newest := (newest part).
Notation serial := (serial part).
Notation holds := (holds part).
Notation moved := (moved refs0 part).
Notation reached := (reached refs0 part).
Notation inv := (inv refs0 part).

Lemma inv_start : inv start.
Proof.
  split; [|split].
  - split; [intros p; left; split; [reflexivity|intros t []]|right; intros t; constructor].
  - intros p. exists (fun _ => None). split; [intros k; reflexivity|]. split; [reflexivity|]. intros t [].
  - unfold inv_log. cbn. repeat split; try lia; try contradiction; try discriminate. constructor.
Qed.
Lemma reached_inv y : reached y -> inv y.
Proof. induction 1; [apply inv_start|]. apply moved_inv; assumption. Qed.

Theorem alone y t u p : reached y -> In p (holds y t) -> In p (holds y u) -> t = u.
Proof. intros R. apply (one_holder refs0 part). apply (reached_inv y R). Qed.
Theorem seen y p k : reached y ->
  ((forall t, ~ In p (holds y t)) -> view y p k = serial y p k) /\
  forall t, In p (holds y t) ->
    view y p k = match newest p k (pending (y_threads y t)) with Some e => Some e | None => serial y p k end.
Proof.
  intros R. destruct (reached_inv y R) as (L & D & _). destruct (D p) as [b [RK [B C]]]. unfold view. split.
  - intros N. rewrite (B N k). apply RK.
  - intros t I. rewrite (chain_view part p b _ _ k (C t I)), <- pending_undo, <- (RK k). destruct (newest p k (pending (y_threads y t))); reflexivity.
Qed.
Theorem seen_by_cursor y t p k : reached y -> y_threads y t = Idle -> In p (y_cursors y t) -> view y p k = serial y p k.
Proof.
  intros R T I. destruct (seen y p k R) as [_ S]. rewrite (S t) by (apply in_or_app; left; exact I). rewrite T. reflexivity.
Qed.
Lemma recover_fold y p k l : StronglySorted N.lt (map fst l) ->
  forall t, fold_left (recover_record part y p) l t k =
    over (newest p k (concat (map snd (filter (fun r => negb (fst r <=? snd (y_disk y p))%N) l)))) (t k).
Proof.
  assert (E : forall l t, fold_left (replay_event part p) l t k = over (newest p k l) (t k)).
  { induction l0 as [|e l0 IH]; intros t; cbn [fold_left Spec.Batches.newest]; [reflexivity|]. rewrite IH. destruct (newest p k l0); [reflexivity|]. cbn [over].
    unfold replay_event, where_. destruct (part (ev_id e) =? p)%N; cbn [andb]; [|reflexivity]. unfold tset. destruct (key_eqb_spec k (key_of e)) as [->|N].
    - destruct (key_eqb_spec (key_of e) (key_of e)); [reflexivity|congruence].
    - destruct (key_eqb_spec (key_of e) k); [congruence|reflexivity]. }
  induction l as [|r l IH]; intros S t; cbn [fold_left filter]; [reflexivity|]. cbn [map] in S. inversion S; subst. rewrite IH by assumption.
  unfold recover_record. destruct (fst r <=? snd (y_disk y p))%N; cbn [negb]; [reflexivity|]. cbn [map concat]. rewrite newest_app, E, over_assoc. reflexivity.
Qed.
Lemma split_at n l : StronglySorted N.lt (map fst l) ->
  l = filter (fun r : N * list event => (fst r <=? n)%N) l ++ filter (fun r => negb (fst r <=? n)%N) l.
Proof.
  induction l as [|r l IH]; intros S; [reflexivity|]. cbn [map] in S. inversion S as [|? ? S1 F]; subst. cbn [filter]. destruct (fst r <=? n)%N eqn:E; cbn [negb].
  - cbn [app]. f_equal. apply IH, S1.
  - assert (Z : filter (fun r => (fst r <=? n)%N) l = []).
    { destruct (filter (fun r => (fst r <=? n)%N) l) as [|x f] eqn:Q; [reflexivity|]. assert (I : In x (filter (fun r => (fst r <=? n)%N) l)) by (rewrite Q; left; reflexivity).
      apply filter_In in I. destruct I as [I J]. rewrite Forall_forall in F. specialize (F (fst x) (in_map fst _ _ I)). apply N.leb_gt in E. apply N.leb_le in J. lia. }
    rewrite Z. cbn [app]. f_equal. rewrite (IH S1) at 1. rewrite Z. reflexivity.
Qed.
Theorem stopped y p k : reached y -> recover part y p k = serial y p k.
Proof.
  intros R. destruct (reached_inv y R) as (_ & _ & (S & _ & _ & _ & _ & F & _)). unfold recover. destruct (F p) as (_ & _ & F3). rewrite (recover_fold y p k _ S), (F3 k).
  unfold old.
  unfold Spec.Batches.serial. transitivity (newest p k (concat (map snd (filter (fun r => (fst r <=? snd (y_disk y p))%N) (y_log y) ++ filter (fun r => negb (fst r <=? snd (y_disk y p))%N) (y_log y))))).
  - rewrite map_app, concat_app, newest_app. reflexivity.
  - rewrite <- (split_at (snd (y_disk y p)) (y_log y) S). reflexivity.
Qed.
Theorem settled y : reached y -> quiet y ->
  (forall p k, view y p k = recover part y p k) /\ (forall n, In n (y_acks y) <-> In n (map fst (y_log y))).
Proof.
  intros R Q. split.
  - intros p k. rewrite stopped by exact R. destruct (seen y p k R) as [A B]. pose proof (reached_inv y R) as (L & _).
    destruct (held_or_nobody refs0 part y p L) as [N|[t I]]; [apply A, N|]. rewrite (B t I), (Q t). reflexivity.
  - intros n. destruct (reached_inv y R) as (_ & _ & (_ & _ & _ & _ & _ & _ & G & H)). split; [apply H|]. intros I.
    apply in_map_iff in I. destruct I as [r [<- I]]. destruct (G r I) as [X|[t [todo X]]]; [exact X|]. rewrite (Q t) in X. discriminate.
Qed.
Theorem numbered y m : reached y -> StronglySorted N.lt (map fst (y_log y)) /\
  (y_log (moved y m) = y_log y \/ exists t log, m = Go t /\ y_threads y t = Adding log [] /\
     y_log (moved y m) = y_log y ++ [((y_lsn y + 1)%N, map en_event log)] /\ forall n, In n (map fst (y_log y)) -> (n < y_lsn y + 1)%N).
Proof.
  intros R. destruct (reached_inv y R) as (_ & _ & (S & B & _)). split; [exact S|].
  destruct m as [t l|t|t|t p|t p|p|p|p]; cbn [Model.Batches.moved].
  - left. destruct (y_threads y t); reflexivity.
  - unfold go. destruct (y_threads y t) as [|log [|e rest]|log e rest|n [|x todo]|[|x todo]] eqn:T; try (left; reflexivity).
    + right. exists t, log. split; [reflexivity|]. split; [exact T|]. split; [reflexivity|]. intros n I. apply in_map_iff in I. destruct I as [r [<- I]].
      specialize (B r I). lia.
    + left. destruct (lock_by refs0 (y_locks y (where_ part e)) t); reflexivity.
  - left. destruct (y_threads y t); reflexivity.
  - left. destruct (y_threads y t); try reflexivity. destruct (lock_by refs0 (y_locks y p) t); reflexivity.
  - left. destruct (y_threads y t); try reflexivity. destruct (existsb (N.eqb p) (y_cursors y t)); reflexivity.
  - left. destruct (lk_owner (y_locks y p)); [reflexivity|]. destruct (y_side y p) as [[? ?]|]; reflexivity.
  - left. destruct (lk_owner (y_locks y p)); [reflexivity|]. destruct (y_side y p) as [[? ?]|]; reflexivity.
  - left. reflexivity.
Qed.
(* what a thread has locked stays as it is while others move *)
Definition mover (m : move) : option nat :=
  match m with Begin t _ | Go t | Fail t | Open t _ | Close t _ => Some t | Rotate _ | Apply _ | Finish _ => None end.
Theorem stable y m t p k : reached y -> In p (holds y t) -> mover m <> Some t -> view (moved y m) p k = view y p k.
Proof.
  intros R I M. pose proof (reached_inv y R) as (L & _).
  assert (K : forall u, Some u <> Some t -> ~ In p (holds y u)) by (intros u N J; apply N; f_equal; apply (one_holder refs0 part y u t p L J I)).
  destruct m as [u l|u|u|u q|u q|q|q|q]; cbn [Model.Batches.moved mover] in *.
  - destruct (y_threads y u); reflexivity.
  - specialize (K u M). unfold go, where_. unfold Spec.Batches.holds in K. destruct (y_threads y u) as [|log [|e rest]|log e rest|n [|x todo]|[|x todo]] eqn:T; try reflexivity.
    + destruct (lock_by refs0 (y_locks y (part (ev_id e))) u); reflexivity.
    + assert (N : p <> part (ev_id e)) by (intros ->; apply K, in_or_app; right; cbn [Spec.Batches.busy]; apply in_or_app; right; left; reflexivity).
      unfold view. cbn [turn with_mem y_mem y_file]. rewrite put_ne by exact N. reflexivity.
    + assert (N : p <> part (ev_id (en_event x))) by (intros ->; apply K, in_or_app; right; left; reflexivity).
      unfold view. cbn [turn with_mem with_lock y_mem y_file]. rewrite put_ne by exact N. reflexivity.
  - destruct (y_threads y u); reflexivity.
  - destruct (y_threads y u); try reflexivity. destruct (lock_by refs0 (y_locks y q) u); reflexivity.
  - destruct (y_threads y u); try reflexivity. destruct (existsb (N.eqb q) (y_cursors y u)); reflexivity.
  - destruct (lk_owner (y_locks y q)) eqn:O; [reflexivity|]. destruct (y_side y q) as [[? ?]|]; [reflexivity|]. assert (N : p <> q).
    { intros ->. destruct (proj1 L q) as [[_ F]|[o [W _]]]; [exact (F t I)|congruence]. }
    unfold view, below_table. cbn [y_mem y_side y_file]. rewrite !put_ne by exact N. reflexivity.
  - destruct (lk_owner (y_locks y q)) eqn:O; [reflexivity|]. destruct (y_side y q) as [[? ?]|]; [|reflexivity]. assert (N : p <> q).
    { intros ->. destruct (proj1 L q) as [[_ F]|[o [W _]]]; [exact (F t I)|congruence]. }
    unfold view, below_table. cbn [y_mem y_side y_file]. rewrite !put_ne by exact N. reflexivity.
  - reflexivity.
Qed.
End Batches.

(* samples *)
Definition ev (id v : N) : event := mk_event id 0 [] [v].
Definition ten (i : N) : N := (i / 10)%N.
Definition go_n (t n : nat) : list move := repeat (Go t) n.
Definition fineb (refs0 : Z) (y : system) (m : move) : bool :=
  (refs0 =? 1)%Z ||
  match m with
  | Go t => match y_threads y t with Adding _ (e :: _) => negb (existsb (N.eqb (ten (ev_id e))) (holds ten y t)) | _ => true end
  | Open t p => negb (existsb (N.eqb p) (holds ten y t))
  | _ => true
  end.
Fixpoint all_fine (refs0 : Z) (y : system) (l : list move) : bool :=
  match l with [] => true | m :: r => fineb refs0 y m && all_fine refs0 (moved refs0 ten y m) r end.
Lemma fineb_ok refs0 y m : fineb refs0 y m = true -> refs0 = 1%Z \/ ~ again ten y m.
Proof.
  unfold fineb. intros H. apply orb_true_iff in H. destruct H as [H|H]; [left; apply Z.eqb_eq, H|right].
  assert (X : forall p l, negb (existsb (N.eqb p) l) = true -> ~ In p l).
  { intros p l E I. apply negb_true_iff in E. assert (existsb (N.eqb p) l = true) by (apply existsb_exists; exists p; split; [exact I|apply N.eqb_refl]). congruence. }
  destruct m as [t l|t|t|t p|t p|p|p|p]; cbn [again]; try tauto.
  - destruct (y_threads y t) as [|log [|e rest]|log e rest|n [|x todo]|[|x todo]]; try tauto. apply X, H.
  - apply X, H.
Qed.
Lemma all_fine_ok refs0 l : forall y, reached refs0 ten y -> all_fine refs0 y l = true -> reached refs0 ten (fold_left (moved refs0 ten) l y).
Proof.
  induction l as [|m l IH]; intros y R H; [exact R|]. cbn [all_fine] in H. apply andb_true_iff in H. destruct H as [A B]. cbn [fold_left].
  apply IH; [|exact B]. apply moved_on; [exact R|apply fineb_ok, A].
Qed.
Definition run (refs0 : Z) (l : list move) : system := moves refs0 ten l.
(* three writers, one of which fails, a cursor and a refresh *)
Definition sample : list move :=
  [Begin 1 [ev 5 1; ev 25 1]; Begin 2 [ev 15 2; ev 5 2]; Begin 3 [ev 35 3; ev 36 4]] ++
  [Go 1; Go 1; Go 2; Go 2; Go 2; Go 1; Go 1; Go 1; Go 1; Go 2; Go 2; Go 1; Go 1; Go 2; Go 2; Go 2; Go 2; Go 2] ++
  [Rotate 0%N; Begin 1 [ev 5 9; ev 15 9]; Apply 0%N; Rotate 1%N; Finish 0%N; Open 4 1%N; Go 1; Go 1; Go 1; Close 4 1%N; Go 1; Go 1; Fail 1; Open 5 2%N].
Lemma sample_fine : reached 0 ten (run 0 (sample ++ [Go 3; Go 3])) /\
  let y := run 0 (sample ++ [Go 3; Go 3]) in
  map fst (y_log y) = [1; 2]%N /\ y_acks y = [1; 2]%N /\ pending (y_threads y 1) = [ev 5 9; ev 15 9] /\ holds ten y 1 = [1; 0]%N /\ holds ten y 5 = [2]%N /\
  view y 0 (5, [])%N = Some (ev 5 9) /\ serial ten y 0 (5, [])%N = Some (ev 5 2) /\ view y 2 (25, [])%N = Some (ev 25 1) /\
  snd (y_disk y 0%N) = 2%N /\ option_map snd (y_side y 1%N) = Some 2%N.
Proof. split; [apply all_fine_ok; [apply at_start|vm_compute; reflexivity]|]. vm_compute. repeat split. Qed.
Definition sample_end : list move := sample ++ [Go 1; Go 1; Go 1] ++ go_n 3 2 ++ [Fail 3] ++ go_n 3 2 ++ [Close 5 2%N].
Lemma sample_quiet : reached 0 ten (run 0 sample_end) /\ quiet (run 0 sample_end) /\ view (run 0 sample_end) 0 (5, [])%N = Some (ev 5 2) /\
  view (run 0 sample_end) 3 (35, [])%N = None.
Proof.
  split; [apply all_fine_ok; [apply at_start|vm_compute; reflexivity]|]. split; [|split; vm_compute; reflexivity].
  intros t. do 6 (destruct t as [|t]; [vm_compute; reflexivity|]). reflexivity.
Qed.

(* a batch of two events in one partition, while two others write one event each *)
Definition twice : list move :=
  Begin 1 [ev 1 1; ev 2 1] :: go_n 1 6 ++ [Begin 2 [ev 5 5]; Go 2; Go 1; Go 1; Go 2; Begin 3 [ev 5 6]; Go 3; Go 3].
Definition lost : list move := twice ++ go_n 3 3 ++ [Fail 2] ++ go_n 2 2.
Definition differ : list move := twice ++ go_n 3 3 ++ go_n 2 3.
Lemma quiet_3 y : y_threads y 1 = Idle -> y_threads y 2 = Idle -> y_threads y 3 = Idle ->
  (forall t, y_threads y (4 + t) = Idle) -> y_threads y 0 = Idle -> quiet y.
Proof. intros A B C D E [|[|[|[|t]]]]; auto. apply (D t). Qed.
Lemma lost_is : let y := moves 0 ten lost in
  quiet y /\ y_acks y = [1; 2]%N /\ y_log y = [(1, [ev 1 1; ev 2 1]); (2, [ev 5 6])]%N /\
  view y 0 (5, [])%N = None /\ recover ten y 0 (5, [])%N = Some (ev 5 6) /\
  recover ten (moves 0 ten (lost ++ [Rotate 0; Apply 0; Finish 0]))%N 0 (5, [])%N = None.
Proof. split; [apply quiet_3; try (vm_compute; reflexivity); intros t; reflexivity|]. vm_compute. repeat split. Qed.
Lemma differ_is : let y := moves 0 ten differ in
  quiet y /\ y_acks y = [1; 2; 3]%N /\ y_log y = [(1, [ev 1 1; ev 2 1]); (2, [ev 5 6]); (3, [ev 5 5])]%N /\
  view y 0 (5, [])%N = Some (ev 5 6) /\ recover ten y 0 (5, [])%N = Some (ev 5 5).
Proof. split; [apply quiet_3; try (vm_compute; reflexivity); intros t; reflexivity|]. vm_compute. repeat split. Qed.
(* a thread writes below its cursor *)
Definition below : list move := [Open 1 0%N; Begin 1 [ev 1 1]] ++ go_n 1 5 ++ [Begin 2 [ev 5 5]; Go 2; Go 2].
Lemma below_is : let y := moves 0 ten below in
  y_cursors y 1 = [0]%N /\ y_threads y 1 = Idle /\ y_log y = [(1, [ev 1 1])]%N /\ view y 0 (5, [])%N = Some (ev 5 5) /\
  view (moves 0 ten (below ++ [Fail 2; Go 2; Go 2])) 0 (5, [])%N = None.
Proof. vm_compute. repeat split. Qed.
(* one cursor over two partitions *)
Definition scan1 : list move := [Open 1 0%N].
Definition scan2 : list move := [Close 1 0%N; Begin 2 [ev 5 5; ev 15 5]] ++ go_n 2 8 ++ [Open 1 1%N].
Lemma torn_scan : reached 0 ten (moves 0 ten scan1) /\ reached 0 ten (moves 0 ten (scan1 ++ scan2)) /\
  y_cursors (moves 0 ten scan1) 1 = [0]%N /\ view (moves 0 ten scan1) 0 (5, [])%N = None /\
  y_cursors (moves 0 ten (scan1 ++ scan2)) 1 = [1]%N /\ view (moves 0 ten (scan1 ++ scan2)) 1 (15, [])%N = Some (ev 15 5) /\
  y_log (moves 0 ten (scan1 ++ scan2)) = [(1, [ev 5 5; ev 15 5])]%N.
Proof.
  split; [apply all_fine_ok; [apply at_start|vm_compute; reflexivity]|]. split; [apply all_fine_ok; [apply at_start|vm_compute; reflexivity]|].
  vm_compute. repeat split.
Qed.
(* with a count that starts at 1 these histories are within the theorems *)
Lemma repaired : reached 1 ten (run 1 lost) /\ reached 1 ten (run 1 differ) /\ reached 1 ten (run 1 below) /\
  y_threads (run 1 lost) 3 = Adding [] [ev 5 6].
Proof.
  split; [apply all_fine_ok; [apply at_start|vm_compute; reflexivity]|]. split; [apply all_fine_ok; [apply at_start|vm_compute; reflexivity]|].
  split; [apply all_fine_ok; [apply at_start|vm_compute; reflexivity]|vm_compute; reflexivity].
Qed.
