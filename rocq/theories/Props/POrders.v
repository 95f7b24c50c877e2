(* C96: statements about partitions given as texts. *)
From Coq Require Import NArith ZArith String List Bool Sorted.
Import ListNotations.
From Verif Require Import Model.Base Model.Data Model.Json Model.Show Model.Lex Model.Parse Spec.Units Spec.Command Proof.ParseX.
From Verif Require Import Model.Event Model.Memtable Model.Mapping Model.Merge
  Model.PartIter Model.Scan Model.Engine
  Spec.Order Spec.Layout Spec.Merged Spec.Files Spec.Regions Spec.View Spec.Engine
  Proof.EngineX Proof.CrashX.
From Verif Require Import Model.Crash Model.Orders Spec.Crash Spec.Drops Spec.Orders Proof.OrdersH Proof.OrdersX.

(* C96: after any history of texts, stops inside of them, batches, refreshes on their way and starts the database
   opens and shows the acknowledged events of the partitions that are not dropped *)
Theorem C96_history : forall names strtod e lo storages iv serial page region ops, limits lo iv -> storages_ok storages ->
  told_fine names strtod e lo [] (db_new storages iv serial page region) ops ->
  exists b, hrun names strtod e (db_new storages iv serial page region) ops = Ok b /\
    (forall x, sees b x <-> current (told_acked names strtod e (db_new storages iv serial page region) ops []) x) /\
    forall key, start_fine lo key ->
    exists out n, (forall fuel, n < fuel -> monotone_scan fuel (en_map (db_en b)) key = Ok (Some out)) /\
      ascending out /\
      forall x, In x out <-> current (told_acked names strtod e (db_new storages iv serial page region) ops []) x /\ from key x.
Proof. exact told_history. Qed.
Print Assumptions C96_history.
Example C96_history_example : (limits 0 10 /\ storages_ok [0; 1; 2]%N) /\ told_fine called no_reals an_env 0 [] b0 year /\
  hscan year = Ok (Some [mk_event 36 0 [] [4]; mk_event 61 0 [] [6]])%N /\
  all_lost called no_reals an_env [] b0 year = [(10, 19); (20, 29); (0, 9)]%N /\
  places (hstate year) = [(30, 39); (60, 69)]%N.
Proof. exact year_fine. Qed.

(* C96: what one text does: [does] for a sentence, nothing for all else; it ends, and waits only for a refresh *)
Theorem C96_says : forall names strtod e lo R b h text ts, treachable names strtod e lo R b h -> text_fine names strtod e lo R b text ->
  tokens strtod text ts ->
  exists p, tell names strtod e b text = Ok p /\ rp_end p <> Endless /\
    (rp_end p = Waits -> exists s, In s (slices b) /\ locked b s) /\
    (forall c, sentence (env_at e b) (with_units ts) (Some c) -> db_jobs b = [] -> does names b c (rp_db p) (rp_end p)) /\
    (sentence (env_at e b) (with_units ts) None -> rp_db p = b /\ rp_end p = Done) /\
    ((forall c, ~ sentence (env_at e b) (with_units ts) c) -> rp_db p = b /\ rp_end p = Failed).
Proof. exact told_means. Qed.
Print Assumptions C96_says.
Example C96_says_example :
  treachable called no_reals an_env 0 half_lost (hstate half) (told_acked called no_reals an_env b0 half []) /\
  db_jobs (hstate half) = [] /\
  text_fine called no_reals an_env 0 half_lost (hstate half) drop_text /\
  text_fine called no_reals an_env 0 half_lost (hstate half) move_text /\
  parse no_reals (env_at an_env (hstate half)) drop_text = Ok (Some (CmdDropRange 10 29 9)) /\
  parse no_reals (env_at an_env (hstate half)) move_text = Ok (Some (CmdMove 25 false (chars "cold"))) /\
  map range_of (visited (hstate half) 10 29) = [(10, 19); (20, 29)]%N /\
  map (db_home (hstate half)) [0; 10; 20; 30]%N = [1; 1; 0; 0]%N.
Proof. exact (conj half_reach half_texts). Qed.
Example C96_waits_example :
  treachable called no_reals an_env 0 (all_lost called no_reals an_env [] b0 busy) (hstate busy) (told_acked called no_reals an_env b0 busy []) /\
  text_fine called no_reals an_env 0 (all_lost called no_reals an_env [] b0 busy) (hstate busy) drop_text /\
  match tell called no_reals an_env (hstate busy) drop_text with
  | Ok r => rp_end r = Waits /\ places (rp_db r) = [(0, 9); (20, 29); (30, 39)]%N
  | _ => False
  end.
Proof. exact busy_waits. Qed.

(* C96: a stop inside of a text: whole partitions are gone with their events, and the start changes nothing *)
Theorem C96_stop : forall names strtod e lo R b h text n cuts, treachable names strtod e lo R b h ->
  hop_fine names strtod e lo R b (SayStop text n cuts) ->
  exists b1 b2, stopped names strtod e b text n = Ok b1 /\ hstep names strtod e b (SayStop text n cuts) = Ok b2 /\
    tidy (db_dir b2) /\
    (forall x, sees b1 x <-> sees b x /\ gone (vanished b b1) (ev_id x) = false) /\
    (forall x, sees b2 x <-> sees b1 x).
Proof. exact told_stop. Qed.
Print Assumptions C96_stop.
Example C96_stop_example : hop_fine called no_reals an_env 0 half_lost (hstate half) (SayStop drop_text 1 []) /\
  hop_fine called no_reals an_env 0 half_lost (hstate half) (SayStop move_text 4 [1%nat]).
Proof. exact half_stop. Qed.

(* DROP PARTITION ON STORAGE without a cloud succeeds: refreshed events are not seen; the next start brings back
   those that are in the log, and no others *)
Theorem C96_storage_refuted : exists before gc, told_fine called no_reals an_env 0 [] b0 before /\
  hscan before = Ok (Some [mk_event 14 0 [] [1]; mk_event 15 0 [] [2]])%N /\
  match tell called no_reals an_env (hstate before) (chars "DROP PARTITION 14 ON STORAGE") with
  | Ok r => rp_end r = Done | _ => False end /\
  hscan (before ++ [say "DROP PARTITION 14 ON STORAGE"]) = Ok (Some [mk_event 15 0 [] [2]])%N /\
  places (hstate (before ++ [say "DROP PARTITION 14 ON STORAGE"])) = [(10, 19)]%N /\
  hscan (before ++ [say "DROP PARTITION 14 ON STORAGE"; Else (CCrash [])]) = Ok (Some [mk_event 14 0 [] [1]; mk_event 15 0 [] [2]])%N /\
  hscan gc = Ok (Some [mk_event 14 0 [] [1]; mk_event 15 0 [] [2]])%N /\
  hscan (gc ++ [say "DROP PARTITION 14 ON STORAGE"; Else (CCrash [])]) = Ok (Some [mk_event 15 0 [] [2]])%N.
Proof. exact offloaded_ex. Qed.
Print Assumptions C96_storage_refuted.
(* CREATE PARTITION without an end makes a partition of one id more than the interval *)
Theorem C96_create_refuted : exists l, l = [say "CREATE PARTITION 60"; put 70 1; put 75 2] /\
  hrun called no_reals an_env b0 l = Ok (hstate l) /\ en_interval (db_en (hstate l)) = 10%N /\
  places (hstate l) = [(60, 70); (71, 79)]%N.
Proof. exact (ex_intro _ no_end (conj eq_refl one_more)). Qed.
Print Assumptions C96_create_refuted.
(* DROP PARTITIONS is not one change: after a stop the first partition is gone and the second one is there *)
Theorem C96_whole_refuted : exists text n b1 b2, text = drop_text /\
  hop_fine called no_reals an_env 0 half_lost (hstate half) (SayStop text n []) /\
  stopped called no_reals an_env (hstate half) text n = Ok b1 /\
  hstep called no_reals an_env (hstate half) (SayStop text n []) = Ok b2 /\
  places (hstate half) = [(0, 9); (10, 19); (20, 29); (30, 39)]%N /\ places b1 = [(0, 9); (20, 29); (30, 39)]%N /\
  monotone_scan 1000 (en_map (db_en b2)) None = Ok (Some [mk_event 3 0 [] [1]; mk_event 25 0 [] [3]; mk_event 36 0 [] [4]])%N.
Proof. exact in_parts. Qed.
Print Assumptions C96_whole_refuted.
