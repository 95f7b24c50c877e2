(* Resumed ingestion: what is acknowledged is a prefix of the source. *)
From Coq Require Import NArith ZArith List Bool Lia Arith.
Import ListNotations.
From Verif Require Import Model.Base Model.Event Model.Rbtree Model.Memtable Model.Mapping Model.Scan Model.Engine Spec.Order
  Spec.Engine Spec.Grow Proof.MemtableX Proof.MemtableM Proof.GrowX Proof.RefillS Proof.RefillX Proof.RefillY.
From Verif Require Import Model.Crash Spec.Crash Spec.Refill Spec.Resume.

Lemma prefix_next (src h evs : list event) : h = firstn (length h) src -> evs = firstn (length evs) (skipn (length h) src) ->
  h ++ evs = firstn (length (h ++ evs)) src.
Proof.
  intros Hh He. rewrite app_length.
  assert (E : src = h ++ skipn (length h) src) by (rewrite Hh at 1; symmetry; apply firstn_skipn).
  rewrite E. rewrite firstn_app.
  replace (length h + length evs - length h) with (length evs) by lia.
  rewrite <- He. f_equal. symmetry. apply firstn_all2. lia.
Qed.
Lemma resume_step src b h o : h = firstn (length h) src -> resumes src b h o ->
  cack_step b o h = firstn (length (cack_step b o h)) src.
Proof.
  intros Hh Hr. destruct o; cbn [resumes cack_step] in *; auto.
  - destruct (engine_write _ _ _) as [[? [?|]]| |]; auto. apply prefix_next; auto.
  - destruct (engine_write _ _ _) as [[? [?|]]| |]; auto. destruct whole; auto. apply prefix_next; auto.
Qed.
Lemma resume_prefix src : forall l b h, h = firstn (length h) src -> resume_hist src b h l ->
  cacked b l h = firstn (length (cacked b l h)) src.
Proof.
  induction l as [|o l IH]; intros b h Hh Hr; cbn [resume_hist cacked] in *; auto.
  destruct Hr as [H1 H2]. pose proof (resume_step src b h o Hh H1) as Hs.
  destruct (cstep b o); apply IH; auto.
Qed.
Lemma resume_scan : forall lo storages iv serial page region src ops, limits lo iv -> storages_ok storages ->
  (lo + 2^31 < 2^63)%N -> flow_hist lo (db_new storages iv serial page region) [] ops ->
  resume_hist src (db_new storages iv serial page region) [] ops ->
  exists b n, crun (db_new storages iv serial page region) ops = Ok b /\
    forall fuel, n < fuel -> monotone_scan fuel (en_map (db_en b)) None =
      Ok (Some (shown (firstn (length (cacked (db_new storages iv serial page region) ops [])) src))).
Proof.
  intros lo sts iv serial page region src ops L SO H63 Hh Hr.
  rewrite <- (resume_prefix src ops _ [] eq_refl Hr). apply (flow_scan lo); auto.
Qed.

(* --- a sample --- *)
Definition event_eq_dec (a b : event) : {a = b} + {a <> b}.
Proof. repeat decide equality. Defined.
Definition nextb (src : list event) (b : db) (h : list event) (l : list warg) : bool :=
  let evs := assigned (en_serial (db_en b)) (en_ssn (db_en b)) l in
  if list_eq_dec event_eq_dec evs (firstn (length evs) (skipn (length h) src)) then true else false.
Definition resumesb (src : list event) (b : db) (h : list event) (o : cop) : bool :=
  match o with
  | CWrite l _ => nextb src b h l
  | CCrashIn l _ => nextb src b h l
  | _ => true
  end.
Fixpoint resume_histb (src : list event) (b : db) (h : list event) (l : list cop) : bool :=
  match l with
  | [] => true
  | o :: t =>
      (resumesb src b h o &&
      match cstep b o with
      | Ok b' => resume_histb src b' (cack_step b o h) t
      | _ => resume_histb src b (cack_step b o h) t
      end)%bool
  end.
Lemma nextb_ok src b h l : nextb src b h l = true -> next_of src b h l.
Proof. unfold nextb, next_of. destruct (list_eq_dec _ _ _); auto. discriminate. Qed.
Lemma resumesb_ok src b h o : resumesb src b h o = true -> resumes src b h o.
Proof. destruct o; cbn [resumesb resumes]; auto using nextb_ok. Qed.
Lemma resume_histb_ok src : forall l b h, resume_histb src b h l = true -> resume_hist src b h l.
Proof.
  induction l as [|o l IH]; intros b h H; cbn [resume_histb resume_hist] in *; auto.
  apply andb_true_iff in H as [H1 H2]. split; [apply resumesb_ok; auto|]. destruct (cstep b o); auto.
Qed.
(* 514 events, a refresh on its way, a stop that loses the record of the next 20, these again, refused by
   the log, and again with a stop that does not lose them; the next 30 in a second partition, and a stop *)
Definition resume_src : list event := ids 1000 514 ++ ids 2000 20 ++ ids 4990 30 ++ ids 6000 7.
Definition resume_ops : list cop :=
  [cput (ids 1000 514); CBegin 1000 None; CStep 0; CCrashIn (wargs (ids 2000 20)) false;
   CWrite (wargs (ids 2000 20)) false; CCrashIn (wargs (ids 2000 20)) true; cput (ids 4990 30); CCrash [1]].
Lemma resume_ops_ok : (flow_histb 0 b1 [] resume_ops && resume_histb resume_src b1 [] resume_ops)%bool = true.
Proof. vm_compute. reflexivity. Qed.
Lemma resume_ops_hist : flow_hist 0 b1 [] resume_ops /\ resume_hist resume_src b1 [] resume_ops.
Proof.
  pose proof resume_ops_ok as H. apply andb_true_iff in H as [H1 H2].
  split; [apply flow_histb_ok; exact H1|apply resume_histb_ok; exact H2].
Qed.
