(* Statements about partitions as texts: what each does, and histories of them. *)
From Coq Require Import NArith ZArith List Bool.
Import ListNotations.
From Verif Require Import Model.Base Model.Lex Model.Parse Spec.Units Spec.Command.
From Verif Require Import Model.Event Model.Memtable Model.Mapping Model.PartIter Model.Codec Model.Scan Model.Engine Model.Crash
  Model.Orders Spec.Order Spec.Layout Spec.Regions Spec.View Spec.Engine Spec.Crash Spec.Drops.

Definition slices (b : db) : list (slice part) := mapping_list (en_map (db_en b)).
Definition places (b : db) : list range := ranges (en_map (db_en b)).
Definition holds (b : db) (id : N) (s : slice part) : Prop := In s (slices b) /\ in_range id (range_of s).
(* partitions that a loop over a range comes to *)
Definition visited (b : db) (mn mx : N) : list (slice part) :=
  if existsb (straddles mn) (slices b) then [] else filter (inside mn mx) (slices b).

(* ---- the effect of a statement while no refresh is on its way ---- *)
(* partitions are gone with their events, and nothing else *)
Definition only_lost (b b' : db) (l : list range) : Prop :=
  (forall r, In r (places b') <-> In r (places b) /\ ~ In r l) /\
  forall e, sees b' e <-> sees b e /\ gone l (ev_id e) = false.
(* all events of a partition are in its file, the only one, on this storage *)
Definition filed (b : db) (r : range) (st : N) : Prop :=
  exists s f, In s (slices b) /\ range_of s = r /\ mt_events (pt_mem (s_data s)) = [] /\ mt_events (pt_prev (s_data s)) = [] /\
    pt_file (s_data s) = Some f /\ db_home b (s_min s) = st /\
    forall x, dget (db_dir b) (x, s_min s) =
      if (x =? st)%N then mk_slot (Some (Some (mk_dfile (s_min s) (s_max s) (pt_lsn (s_data s)) f))) None None else no_files.
(* partitions refreshed or moved; the others stay as they are *)
Definition refiled (b b' : db) (l : list (slice part)) (to : slice part -> N) : Prop :=
  places b' = places b /\ (forall e, sees b' e <-> sees b e) /\
  (forall s, In s l -> filed b' (range_of s) (to s)) /\
  forall s, In s (slices b) -> ~ In s l -> In s (slices b') /\ db_home b' (s_min s) = db_home b (s_min s) /\
    forall st, dget (db_dir b') (st, s_min s) = dget (db_dir b) (st, s_min s).

Definition missing (b b' : db) (if_exists : bool) (out : outcome) : Prop :=
  b' = b /\ out = if if_exists then Done else Failed.
(* for one partition and for those of a range *)
Definition at_one (b b' : db) (id : N) (if_exists : bool) (out : outcome) (does : slice part -> Prop) : Prop :=
  (forall s, holds b id s -> does s) /\ ((forall s, ~ holds b id s) -> missing b b' if_exists out).

Section DOES.
Variable names : list byte -> option N.
Definition does_drop (b b' : db) (l : list (slice part)) (mask : N) (out : outcome) : Prop :=
  out = Done /\ (mask = 9%N -> only_lost b b' (map range_of l)) /\ (mask = 8%N -> b' = b).
Definition does_refresh (b b' : db) (l : list (slice part)) (out : outcome) : Prop :=
  out = Done /\ refiled b b' l (fun s => db_home b (s_min s)).
Definition does_move (b b' : db) (l : list (slice part)) (name : list byte) (out : outcome) : Prop :=
  match names name with
  | None => b' = b /\ out = match l with [] => Done | _ => Failed end
  | Some st => out = Done /\ refiled b b' (filter (fun s => negb (db_home b (s_min s) =? st)%N) l) (fun _ => st)
  end.
Definition does_copy (b b' : db) (l : list (slice part)) (if_cloud : bool) (out : outcome) : Prop :=
  b' = b /\ out = match l with [] => Done | _ => if if_cloud then Done else Failed end.
Definition does (b : db) (c : cmd) (b' : db) (out : outcome) : Prop :=
  match c with
  | CmdCreate mn mx =>
      ((mx < mn)%N -> b' = b /\ out = Failed) /\
      ((mn <= mx)%N -> out = Done /\ (forall r, In r (places b') <-> In r (places b) \/ r = (mn, mx)) /\ forall e, sees b' e <-> sees b e)
  | CmdDrop id ie mask => at_one b b' id ie out (fun s => does_drop b b' [s] mask out)
  | CmdDropRange mn mx mask => does_drop b b' (visited b mn mx) mask out
  | CmdRefresh id ie => at_one b b' id ie out (fun s => does_refresh b b' [s] out)
  | CmdRefreshRange mn mx => does_refresh b b' (visited b mn mx) out
  | CmdMove id ie name => at_one b b' id ie out (fun s => does_move b b' [s] name out)
  | CmdMoveRange mn mx name => does_move b b' (visited b mn mx) name out
  | CmdDownload id ie ic | CmdUpload id ie ic => at_one b b' id ie out (fun s => does_copy b b' [s] ic out)
  | CmdDownloadRange mn mx ic | CmdUploadRange mn mx ic => does_copy b b' (visited b mn mx) ic out
  | _ => b' = b /\ out = Done
  end.

(* ---- limits ---- *)
Definition locked (b : db) (s : slice part) : Prop := exists j, In j (db_jobs b) /\ jb_ref j = s_min s.
(* no failed refresh before, and the events fit in one region *)
Definition ready (b : db) (s : slice part) : Prop :=
  mt_events (pt_prev (s_data s)) = [] /\ ~ leftover b (s_min s) /\
  (region_weight (concat (contents (s_data s))) < 2^32)%N.
Definition window (lo id : N) : Prop := (lo <= id < lo + 2^31)%N.
Definition known (b : db) (name : list byte) : Prop := forall st, names name = Some st -> In st (db_storages b).
Definition order_fine (lo : N) (R : list range) (b : db) (c : cmd) : Prop :=
  match c with
  | CmdCreate mn mx => dop_fine lo R b (CCreate mn mx)
  | CmdDrop id _ mask => window lo id /\ (mask = 9%N \/ mask = 8%N) /\ (en_lsn (db_en b) < u64_max)%N /\
      forall s, holds b id s -> locked b s \/ ~ leftover b (s_min s)
  | CmdDropRange mn mx mask => window lo mn /\ (mask = 9%N \/ mask = 8%N) /\
      (en_lsn (db_en b) + N.of_nat (length (slices b)) <= u64_max)%N /\
      forall s, In s (visited b mn mx) -> locked b s \/ ~ leftover b (s_min s)
  | CmdMove id _ name => window lo id /\ known b name /\ forall s, holds b id s -> locked b s \/ ready b s
  | CmdMoveRange mn mx name => window lo mn /\ known b name /\ forall s, In s (visited b mn mx) -> locked b s \/ ready b s
  | CmdRefresh id _ => window lo id /\ forall s, holds b id s -> locked b s \/ ready b s
  | CmdRefreshRange mn mx => window lo mn /\ forall s, In s (visited b mn mx) -> locked b s \/ ready b s
  | CmdDownload id _ _ | CmdUpload id _ _ => window lo id
  | CmdDownloadRange mn mx _ | CmdUploadRange mn mx _ => window lo mn
  | _ => True
  end.

(* ---- histories ---- *)
Variable strtod : list byte -> option (N * nat).
Variable e : env.
Definition text_fine (lo : N) (R : list range) (b : db) (text : list byte) : Prop :=
  exists ts, tokens strtod text ts /\
    ((exists c, sentence (env_at e b) (with_units ts) c) \/ ~ crowded (with_units ts) /\ ~ In dollar (with_units ts)) /\
    forall c, sentence (env_at e b) (with_units ts) (Some c) -> order_fine lo R b c.

(* partitions of b that are not in b' *)
Definition range_eqb (r r' : range) : bool := ((fst r =? fst r') && (snd r =? snd r'))%N.
Definition vanished (b b' : db) : list range :=
  filter (fun r => negb (existsb (range_eqb r) (places b'))) (places b).
(* the database when the process stops in a text *)
Definition stopped (b : db) (text : list byte) (n : nat) : res db :=
  match tell names strtod e b text with
  | Ok r => arun b (firstn n (rp_acts r))
  | Err => Err
  | UB => UB
  end.
Definition lost (b : db) (x : hop) : list range :=
  match x with
  | Say text => match hstep names strtod e b x with Ok b' => vanished b b' | _ => [] end
  | SayStop text n _ => match stopped b text n with Ok b' => vanished b b' | _ => [] end
  | Else o => match cstep b o with Ok _ => dropped b o | _ => [] end
  end.
Definition hop_fine (lo : N) (R : list range) (b : db) (x : hop) : Prop :=
  match x with
  | Say text => text_fine lo R b text
  | SayStop text n cuts => text_fine lo R b text /\
      match stopped b text n with Ok b' => dop_fine lo (vanished b b' ++ R) b' (CCrash cuts) | _ => True end
  | Else o => dop_fine lo R b o
  end.
Fixpoint told_fine (lo : N) (R : list range) (b : db) (l : list hop) : Prop :=
  match l with
  | [] => True
  | x :: t => hop_fine lo R b x /\
      match hstep names strtod e b x with Ok b' => told_fine lo (lost b x ++ R) b' t | _ => True end
  end.
(* acknowledged events that are not dropped *)
Definition ack (b : db) (x : hop) (h : list event) : list event :=
  match x with Else o => cack_step b o h | _ => h end.
Fixpoint told_acked (b : db) (l : list hop) (h : list event) : list event :=
  match l with
  | [] => h
  | x :: t =>
      match hstep names strtod e b x with
      | Ok b' => told_acked b' t (filter (fun x' => negb (gone (lost b x) (ev_id x'))) (ack b x h))
      | _ => h
      end
  end.
Fixpoint all_lost (R : list range) (b : db) (l : list hop) : list range :=
  match l with
  | [] => R
  | x :: t => match hstep names strtod e b x with Ok b' => all_lost (lost b x ++ R) b' t | _ => R end
  end.
Definition treachable (lo : N) (R : list range) (b : db) (h : list event) : Prop :=
  exists storages iv serial page region ops,
    limits lo iv /\ storages_ok storages /\
    told_fine lo [] (db_new storages iv serial page region) ops /\
    hrun names strtod e (db_new storages iv serial page region) ops = Ok b /\
    R = all_lost [] (db_new storages iv serial page region) ops /\
    h = told_acked (db_new storages iv serial page region) ops [].
End DOES.
