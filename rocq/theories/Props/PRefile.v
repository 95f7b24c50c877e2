(* C68: a refresh after one whose file could not be renamed. *)
From Coq Require Import NArith ZArith List Bool.
Import ListNotations.
From Verif Require Import Model.Base Model.Event Model.Codec Model.File Model.Refile Spec.Refile Proof.VfsX Proof.RefileL.

Theorem C68_separate : forall compress decompress encrypt decrypt s st old ix refs ls fuel mem,
  holds decompress decrypt ix old refs ls -> length mem + length (concat ls) < fuel ->
  refresh_file false compress decompress encrypt decrypt s st old None ix refs fuel mem
  = Ok (write_file compress encrypt s st (filter live (merge2 mem (concat ls)))).
Proof. exact refresh_separate. Qed.
Print Assumptions C68_separate.
Example C68_separate_example : holds plain_d plain_k own_ix own_old own_refs [[ev1 1 11]; [ev1 6 16]; [ev1 7 17]; [ev1 8 18]].
Proof. exact own_holds. Qed.
Theorem C68_behind : forall compress decompress encrypt decrypt s st old left ix refs ls fuel mem,
  holds decompress decrypt ix old refs ls -> length mem + length (concat ls) < fuel ->
  behind compress decompress encrypt decrypt s ix old fuel writer_start mem refs [] ->
  refresh_file true compress decompress encrypt decrypt s st old left ix refs fuel mem
  = Ok (over old (write_file compress encrypt s st (filter live (merge2 mem (concat ls))))).
Proof. exact refresh_own. Qed.
Print Assumptions C68_behind.
Example C68_behind_example : behind plain_c plain_d plain_e plain_k one_source own_ix own_old 9 writer_start [ev1 9 29] own_refs [].
Proof. exact behind_example. Qed.
Theorem C68_one_region : forall compress decompress encrypt decrypt s st old left ix r l fuel mem,
  load decompress decrypt ix old r = Ok l -> l <> [] -> N.to_nat (ir_offset r) <= length old -> length mem + length l < fuel ->
  refresh_file true compress decompress encrypt decrypt s st old left ix [r] fuel mem
  = Ok (over old (write_file compress encrypt s st (filter live (merge2 mem l)))).
Proof. exact refresh_own_one. Qed.
Print Assumptions C68_one_region.
Example C68_one_region_example : load plain_d plain_k lone_ix lone_old lone_ref = Ok [(fst (ev1 1 11), skipn 55 (firstn 100 lone_old)); (fst (ev1 6 16), skipn 70 (firstn 100 lone_old)); (fst (ev1 7 17), skipn 85 (firstn 100 lone_old)); ev1 8 18] /\
  N.to_nat (ir_offset lone_ref) <= length lone_old.
Proof. exact lone_example. Qed.
Theorem C68_refuted :
  events_of (own_result false) = Ok (map (fun m => [fst m]) [ev1 1 11; ev1 2 22; ev1 3 23; ev1 4 24; ev1 5 25; ev1 6 16; ev1 7 17; ev1 8 18]) /\
  events_of (own_result true) = Ok (map (fun m => [fst m]) [ev1 1 11; ev1 2 22; ev1 3 23; ev1 4 24; ev1 5 25; ev1 6 16; ev1 3 23; ev1 4 24]).
Proof. exact (conj own_right own_wrong). Qed.
Print Assumptions C68_refuted.
