(* A checker for the limits of histories of texts; examples and counterexamples. *)
From Coq Require Import NArith ZArith String List Bool Sorted Lia Arith.
Import ListNotations.
From Verif Require Import Model.Base Model.Data Model.Json Model.Uuid Model.Show Model.Lex Model.Parse Spec.Units Spec.Command Proof.ParseT Proof.ParseL Proof.ParseX.
From Verif Require Import Model.Event Model.Rbtree Model.Memtable Model.Mapping Model.Merge
  Model.PartIter Model.Scan Model.Writer Model.Codec Model.Engine Spec.Order Spec.Merged Spec.Files
  Spec.Layout Spec.Regions Spec.View Spec.Engine Proof.OrderL Proof.MemtableL Proof.EngineL Proof.EngineX
  Proof.DirL Proof.CrashD Proof.CrashP Proof.CrashT Proof.CrashX Proof.DropsX.
From Verif Require Import Model.Crash Model.Orders Spec.Crash Spec.Drops Spec.Orders.
Local Arguments N.pow : simpl never.
Local Arguments N.add : simpl never.
Local Arguments N.sub : simpl never.

Section CHECK.
Variable names : list byte -> option N.
Variable strtod : list byte -> option (N * nat).
Variable e : env.
Definition windowb (lo id : N) : bool := ((lo <=? id) && (id <? lo + 2^31))%N.
Definition lockedb (b : db) (s : slice part) : bool := existsb (fun j => (jb_ref j =? s_min s)%N) (db_jobs b).
Definition readyb (b : db) (s : slice part) : bool :=
  (match mt_events (pt_prev (s_data s)) with [] => true | _ => false end && no_leftoverb b (s_min s) &&
   (region_weight (concat (contents (s_data s))) <? 2^32)%N)%bool.
Definition knownb (b : db) (name : list byte) : bool :=
  match names name with Some st => existsb (fun x => (x =? st)%N) (db_storages b) | None => true end.
Definition maskb (mask : N) : bool := ((mask =? 9) || (mask =? 8))%N.
Definition heldb (b : db) (id : N) (f : slice part -> bool) : bool := forallb (fun s => (negb (slice_in s id) || f s)%bool) (slices b).
Definition seenb (b : db) (mn mx : N) (f : slice part -> bool) : bool := forallb f (visited b mn mx).
Definition order_fineb (lo : N) (R : list range) (b : db) (c : cmd) : bool :=
  (match c with
  | CmdCreate mn mx => dop_fineb lo R b (CCreate mn mx)
  | CmdDrop id _ mask => windowb lo id && maskb mask && (en_lsn (db_en b) <? u64_max)%N && heldb b id (fun s => lockedb b s || no_leftoverb b (s_min s))
  | CmdDropRange mn mx mask => windowb lo mn && maskb mask &&
      (en_lsn (db_en b) + N.of_nat (length (slices b)) <=? u64_max)%N && seenb b mn mx (fun s => lockedb b s || no_leftoverb b (s_min s))
  | CmdMove id _ name => windowb lo id && knownb b name && heldb b id (fun s => lockedb b s || readyb b s)
  | CmdMoveRange mn mx name => windowb lo mn && knownb b name && seenb b mn mx (fun s => lockedb b s || readyb b s)
  | CmdRefresh id _ => windowb lo id && heldb b id (fun s => lockedb b s || readyb b s)
  | CmdRefreshRange mn mx => windowb lo mn && seenb b mn mx (fun s => lockedb b s || readyb b s)
  | CmdDownload id _ _ | CmdUpload id _ _ => windowb lo id
  | CmdDownloadRange mn mx _ | CmdUploadRange mn mx _ => windowb lo mn
  | _ => true
  end)%bool.
Definition text_fineb (lo : N) (R : list range) (b : db) (text : list byte) : bool :=
  match parse strtod (env_at e b) text with
  | Ok (Some c) => order_fineb lo R b c
  | Ok None => true
  | _ => false
  end.
Definition hop_fineb (lo : N) (R : list range) (b : db) (x : hop) : bool :=
  match x with
  | Say text => text_fineb lo R b text
  | SayStop text n cuts => (text_fineb lo R b text &&
      match stopped names strtod e b text n with Ok b' => dop_fineb lo (vanished b b' ++ R) b' (CCrash cuts) | _ => true end)%bool
  | Else o => dop_fineb lo R b o
  end.
Fixpoint told_fineb (lo : N) (R : list range) (b : db) (l : list hop) : bool :=
  match l with
  | [] => true
  | x :: t => (hop_fineb lo R b x &&
      match hstep names strtod e b x with Ok b' => told_fineb lo (lost names strtod e b x ++ R) b' t | _ => true end)%bool
  end.
Lemma windowb_ok lo id : windowb lo id = true -> window lo id.
Proof. unfold windowb, window. intros H. bools. auto. Qed.
Lemma fitb_ok b s : (lockedb b s || readyb b s)%bool = true -> locked b s \/ ready b s.
Proof.
  intros H. apply orb_true_iff in H as [H|H].
  - left. apply existsb_exists in H as (j & Hj & E). apply N.eqb_eq in E. exists j. auto.
  - right. unfold readyb in H. bools. split; [destruct (mt_events _); auto; discriminate|]. split; [apply no_leftoverb_ok; auto|auto].
Qed.
Lemma leftb_ok b s : (lockedb b s || no_leftoverb b (s_min s))%bool = true -> locked b s \/ ~ leftover b (s_min s).
Proof.
  intros H. apply orb_true_iff in H as [H|H]; [|right; apply no_leftoverb_ok; auto].
  left. apply existsb_exists in H as (j & Hj & E). apply N.eqb_eq in E. exists j. auto.
Qed.
Lemma knownb_ok b name : knownb b name = true -> known names b name.
Proof.
  unfold knownb, known. intros H st E. rewrite E in H. apply existsb_exists in H as (x & Hx & X). apply N.eqb_eq in X. subst; auto.
Qed.
Lemma maskb_ok mask : maskb mask = true -> mask = 9%N \/ mask = 8%N.
Proof. unfold maskb. intros H. apply orb_true_iff in H as [H|H]; apply N.eqb_eq in H; auto. Qed.
Lemma heldb_ok b id f : heldb b id f = true -> forall s, holds b id s -> f s = true.
Proof.
  unfold heldb. rewrite forallb_forall. intros H s [Hs Hr]. specialize (H s Hs). apply in_slice in Hr. rewrite Hr in H. exact H.
Qed.
Lemma seenb_ok b mn mx f : seenb b mn mx f = true -> forall s, In s (visited b mn mx) -> f s = true.
Proof. unfold seenb. rewrite forallb_forall. auto. Qed.
Lemma order_fineb_ok lo R b c : order_fineb lo R b c = true -> order_fine names lo R b c.
Proof.
  destruct c; cbn [order_fineb order_fine]; intros H; auto; try (apply windowb_ok; exact H).
  - apply (dop_fineb_ok lo R b (CCreate min max)); auto.
  - bools. split; [apply windowb_ok; auto|]. split; [apply maskb_ok; auto|]. split; auto. intros s Hs. apply leftb_ok.
    exact (heldb_ok _ _ _ H0 s Hs).
  - bools. split; [apply windowb_ok; auto|]. split; [apply maskb_ok; auto|]. split; auto. intros s Hs. apply leftb_ok.
    exact (seenb_ok _ _ _ _ H0 s Hs).
  - bools. split; [apply windowb_ok; auto|]. split; [apply knownb_ok; auto|]. intros s Hs. apply fitb_ok. exact (heldb_ok _ _ _ H0 s Hs).
  - bools. split; [apply windowb_ok; auto|]. split; [apply knownb_ok; auto|]. intros s Hs. apply fitb_ok. exact (seenb_ok _ _ _ _ H0 s Hs).
  - bools. split; [apply windowb_ok; auto|]. intros s Hs. apply fitb_ok. exact (heldb_ok _ _ _ H0 s Hs).
  - bools. split; [apply windowb_ok; auto|]. intros s Hs. apply fitb_ok. exact (seenb_ok _ _ _ _ H0 s Hs).
Qed.
Lemma text_fineb_ok lo R b text : text_fineb lo R b text = true -> text_fine names strtod e lo R b text.
Proof.
  unfold text_fineb. destruct (parse strtod (env_at e b) text) as [o| |] eqn:E; try discriminate. intros H.
  pose proof E as E'. apply accepts in E' as (ts & T & S). exists ts. split; auto. split; [eauto|].
  intros c Sc. destruct (one_meaning strtod (env_at e b) text _ _ _ _ T S T Sc) as [_ X]. subst o. apply order_fineb_ok. exact H.
Qed.
Lemma hop_fineb_ok lo R b x : hop_fineb lo R b x = true -> hop_fine names strtod e lo R b x.
Proof.
  destruct x as [text|text n cuts|o]; cbn [hop_fineb hop_fine]; intros H.
  - apply text_fineb_ok; auto.
  - bools. split; [apply text_fineb_ok; auto|]. destruct (stopped _ _ _ _ _ _); auto. apply dop_fineb_ok; auto.
  - apply dop_fineb_ok; auto.
Qed.
Lemma told_fineb_ok lo : forall l R b, told_fineb lo R b l = true -> told_fine names strtod e lo R b l.
Proof.
  induction l as [|x l IH]; intros R b H; cbn [told_fineb told_fine] in *; auto. bools.
  split; [apply hop_fineb_ok; auto|]. destruct (hstep names strtod e b x); auto.
Qed.
End CHECK.

(* --- samples --- *)
Local Open Scope N_scope.
Definition called (s : list byte) : option N :=
  if list_eq_dec N.eq_dec s (chars "main") then Some 0
  else if list_eq_dec N.eq_dec s (chars "cold") then Some 1 else None.
Definition say (s : string) : hop := Say (chars s).
Definition put (id v : N) : hop := Else (cw [put_ev id v]).
(* events are written, partitions moved and dropped by texts; the process stops in a REFRESH of two
   partitions and in a DROP of two *)
Definition year : list hop :=
  [Else (cw [put_ev 3 1; put_ev 14 2; put_ev 25 3; put_ev 36 4]); say "REFRESH PARTITION 14"; put 15 5;
   SayStop (chars "REFRESH PARTITIONS BETWEEN 0 AND 29") 10 [1%nat]; say "MOVE PARTITIONS BETWEEN 0 AND 19 INTO cold";
   say "CREATE PARTITION 60 69"; say "DOWNLOAD PARTITION 14"; put 61 6; say "drop partition 3"; put 26 7;
   SayStop (chars "DROP PARTITIONS BETWEEN 10 AND 39") 2 []; say "DROP PARTITION IF EXISTS 99"; say "SHOW PARTITIONS"; say "  "].
Definition hstate (l : list hop) : db := match hrun called no_reals an_env b0 l with Ok b => b | _ => b0 end.
Definition hscan (l : list hop) : res (option (list event)) :=
  match hrun called no_reals an_env b0 l with Ok b => monotone_scan 1000%nat (en_map (db_en b)) None | Err => Err | UB => UB end.
Lemma year_fine : (limits 0 10 /\ storages_ok [0; 1; 2]) /\ told_fine called no_reals an_env 0 [] b0 year /\
  hscan year = Ok (Some [mk_event 36 0 [] [4]; mk_event 61 0 [] [6]]) /\
  all_lost called no_reals an_env [] b0 year = [(10, 19); (20, 29); (0, 9)] /\
  places (hstate year) = [(30, 39); (60, 69)].
Proof.
  split; [apply b0_limits|]. split; [apply told_fineb_ok; vm_compute; reflexivity|]. split; [vm_compute; reflexivity|].
  split; vm_compute; reflexivity.
Qed.

Lemma hstate_reach l : told_fineb called no_reals an_env 0 [] b0 l = true ->
  match hrun called no_reals an_env b0 l with Ok _ => true | _ => false end = true ->
  treachable called no_reals an_env 0 (all_lost called no_reals an_env [] b0 l) (hstate l) (told_acked called no_reals an_env b0 l []).
Proof.
  intros H1 H2. destruct b0_limits as [L S]. exists [0; 1; 2], 10, false, 1000, 40, l.
  split; auto. split; auto. split; [apply told_fineb_ok; auto|]. split; auto. unfold hstate. fold b0.
  destruct (hrun called no_reals an_env b0 l); auto; discriminate.
Qed.
Definition half : list hop := firstn 5 year.
Definition half_lost : list range := all_lost called no_reals an_env [] b0 half.
Lemma half_reach : treachable called no_reals an_env 0 half_lost (hstate half) (told_acked called no_reals an_env b0 half []).
Proof. apply hstate_reach; vm_compute; reflexivity. Qed.
Definition drop_text : list byte := chars "DROP PARTITIONS BETWEEN 10 AND 29".
Definition move_text : list byte := chars "MOVE PARTITION 25 INTO cold".
Lemma half_texts : db_jobs (hstate half) = [] /\
  text_fine called no_reals an_env 0 half_lost (hstate half) drop_text /\
  text_fine called no_reals an_env 0 half_lost (hstate half) move_text /\
  parse no_reals (env_at an_env (hstate half)) drop_text = Ok (Some (CmdDropRange 10 29 9)) /\
  parse no_reals (env_at an_env (hstate half)) move_text = Ok (Some (CmdMove 25 false (chars "cold"))) /\
  map range_of (visited (hstate half) 10 29) = [(10, 19); (20, 29)] /\
  map (db_home (hstate half)) [0; 10; 20; 30] = [1; 1; 0; 0].
Proof.
  split; [vm_compute; reflexivity|]. split; [apply text_fineb_ok; vm_compute; reflexivity|]. split; [apply text_fineb_ok; vm_compute; reflexivity|].
  split; [vm_compute; reflexivity|]. split; [vm_compute; reflexivity|]. split; vm_compute; reflexivity.
Qed.
Lemma half_stop : hop_fine called no_reals an_env 0 half_lost (hstate half) (SayStop drop_text 1 []) /\
  hop_fine called no_reals an_env 0 half_lost (hstate half) (SayStop move_text 4 [1%nat]).
Proof. split; apply hop_fineb_ok; vm_compute; reflexivity. Qed.

(* a refresh on its way: statements wait for it *)
Definition busy : list hop := half ++ [Else (CBegin 25 None); Else (CStep 20)].
Lemma busy_waits : treachable called no_reals an_env 0 (all_lost called no_reals an_env [] b0 busy) (hstate busy) (told_acked called no_reals an_env b0 busy []) /\
  text_fine called no_reals an_env 0 (all_lost called no_reals an_env [] b0 busy) (hstate busy) drop_text /\
  match tell called no_reals an_env (hstate busy) drop_text with
  | Ok r => rp_end r = Waits /\ places (rp_db r) = [(0, 9); (20, 29); (30, 39)]
  | _ => False
  end.
Proof.
  split; [apply hstate_reach; vm_compute; reflexivity|]. split; [apply text_fineb_ok; vm_compute; reflexivity|].
  vm_compute. split; reflexivity.
Qed.

(* ON STORAGE without a cloud: the file is removed, its events are gone until the next start, and for good if
   they are not in the log *)
Lemma offloaded_ex : exists before gc, told_fine called no_reals an_env 0 [] b0 before /\
  hscan before = Ok (Some [mk_event 14 0 [] [1]; mk_event 15 0 [] [2]])%N /\
  match tell called no_reals an_env (hstate before) (chars "DROP PARTITION 14 ON STORAGE") with
  | Ok r => rp_end r = Done | _ => False end /\
  hscan (before ++ [say "DROP PARTITION 14 ON STORAGE"]) = Ok (Some [mk_event 15 0 [] [2]])%N /\
  places (hstate (before ++ [say "DROP PARTITION 14 ON STORAGE"])) = [(10, 19)]%N /\
  hscan (before ++ [say "DROP PARTITION 14 ON STORAGE"; Else (CCrash [])]) = Ok (Some [mk_event 14 0 [] [1]; mk_event 15 0 [] [2]])%N /\
  hscan gc = Ok (Some [mk_event 14 0 [] [1]; mk_event 15 0 [] [2]])%N /\
  hscan (gc ++ [say "DROP PARTITION 14 ON STORAGE"; Else (CCrash [])]) = Ok (Some [mk_event 15 0 [] [2]])%N.
Proof.
  exists [put 14 1; say "REFRESH PARTITION 14"; put 15 2], [put 14 1; say "REFRESH PARTITION 14"; Else (CGc 1); put 15 2].
  split; [apply told_fineb_ok; vm_compute; reflexivity|]. repeat (match goal with |- _ /\ _ => split; [vm_compute; reflexivity|] end).
  vm_compute. reflexivity.
Qed.
(* CREATE PARTITION without an end: one id more than an interval, and the next one gets less *)
Definition no_end : list hop := [say "CREATE PARTITION 60"; put 70 1; put 75 2].
Definition okb {A} (r : res A) : bool := match r with Ok _ => true | _ => false end.
Lemma okb_state l : okb (hrun called no_reals an_env b0 l) = true -> hrun called no_reals an_env b0 l = Ok (hstate l).
Proof. unfold hstate. destruct (hrun called no_reals an_env b0 l); cbn; congruence. Qed.
Lemma one_more : hrun called no_reals an_env b0 no_end = Ok (hstate no_end) /\ en_interval (db_en (hstate no_end)) = 10 /\
  places (hstate no_end) = [(60, 70); (71, 79)].
Proof. split; [apply okb_state; vm_compute; reflexivity|]. split; vm_compute; reflexivity. Qed.
(* DROP PARTITIONS is not done as a whole when the process stops in it *)
Definition of_res (r : res db) : db := match r with Ok b => b | _ => b0 end.
Lemma okb_of r : okb r = true -> r = Ok (of_res r).
Proof. destruct r; cbn; congruence. Qed.
Lemma in_parts : exists text n b1 b2, text = drop_text /\
  hop_fine called no_reals an_env 0 half_lost (hstate half) (SayStop text n []) /\
  stopped called no_reals an_env (hstate half) text n = Ok b1 /\
  hstep called no_reals an_env (hstate half) (SayStop text n []) = Ok b2 /\
  places (hstate half) = [(0, 9); (10, 19); (20, 29); (30, 39)] /\ places b1 = [(0, 9); (20, 29); (30, 39)] /\
  monotone_scan 1000%nat (en_map (db_en b2)) None = Ok (Some [mk_event 3 0 [] [1]; mk_event 25 0 [] [3]; mk_event 36 0 [] [4]]).
Proof.
  exists drop_text, 1%nat, (of_res (stopped called no_reals an_env (hstate half) drop_text 1)),
    (of_res (hstep called no_reals an_env (hstate half) (SayStop drop_text 1 []))).
  split; [reflexivity|]. split; [exact (proj1 half_stop)|]. split; [apply okb_of; vm_compute; reflexivity|].
  split; [apply okb_of; vm_compute; reflexivity|]. split; [vm_compute; reflexivity|]. split; vm_compute; reflexivity.
Qed.
