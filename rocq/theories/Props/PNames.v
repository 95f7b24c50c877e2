(* C80: names of files. *)
From Coq Require Import ZArith NArith Arith List Bool String.
Import ListNotations.
From Verif Require Import Model.Base Model.Lex Model.Uuid Model.Wal Model.Names Spec.Units Spec.Names Proof.NamesL.
Local Open Scope N_scope.

(* the name of a file says which partition it is of and in which state, and is read as that *)
Theorem C80_own : forall min s, min < 2 ^ 64 -> own_name min (word s) (id_name min s) /\ engine_recover_id (id_name min s) = Some (min, s).
Proof. exact own_taken. Qed.
Print Assumptions C80_own.
(* the names that are taken for files of partitions *)
Theorem C80_taken : forall name min s, engine_recover_id name = Some (min, s) <-> taken_for min s name.
Proof. exact taken_iff. Qed.
Print Assumptions C80_taken.
(* a directory, in any order and with other files, gives every partition once, with the states of its files *)
Theorem C80_directory : forall entries,
  Forall (fun name => (exists m s, m < 2 ^ 64 /\ name = id_name m s) \/ foreign name) entries ->
  let parts := engine_recover_storage entries in
  NoDup (map fst parts) /\
  forall m, m < 2 ^ 64 ->
    (lookup m parts = None <-> forall s, ~ In (id_name m s) entries) /\
    (forall st, lookup m parts = Some st -> forall s, N.testbit st (bit s) = true <-> In (id_name m s) entries).
Proof. exact directory. Qed.
Print Assumptions C80_directory.
Example C80_directory_example :
  engine_recover_storage [chars ".."; id_name 7 CLOUD; chars "notes.txt"; id_name 3 ID; id_name 7 ID; chars "."; id_name 3 COMPLETE] = [(7, 9); (3, 5)].
Proof. vm_compute. reflexivity. Qed.
(* no two files of partitions have the same path, whatever the paths of their storages *)
Theorem C80_paths : forall d1 p1 u1 m1 s1 d2 p2 u2 m2 s2,
  (List.length d1 + List.length p1 <= 4000)%nat -> (List.length d2 + List.length p2 <= 4000)%nat ->
  u_a u1 < 2 ^ 64 -> u_b u1 < 2 ^ 64 -> u_a u2 < 2 ^ 64 -> u_b u2 < 2 ^ 64 -> m1 < 2 ^ 64 -> m2 < 2 ^ 64 ->
  id_path d1 p1 u1 m1 s1 = id_path d2 p2 u2 m2 s2 -> u1 = u2 /\ m1 = m2 /\ s1 = s2.
Proof. exact paths. Qed.
Print Assumptions C80_paths.
Example C80_paths_example : id_path (chars "/db") (chars "cold") (mk_uuid 1 2) 30 CLOUD =
  chars "/db/cold/00000001-0000-0000-0002-000000000000/00000000000000000030.cloud".
Proof. vm_compute. reflexivity. Qed.
(* the log: the files that are found are those that were made *)
Theorem C80_wal : forall names ids, listing names ids -> wal_recover_names names = wal_recover ids.
Proof. exact wal_names. Qed.
Print Assumptions C80_wal.
Theorem C80_wal_paths : forall d m1 m2, (List.length d <= 4000)%nat -> m1 < 2 ^ 64 -> m2 < 2 ^ 64 -> wal_path d m1 = wal_path d m2 -> m1 = m2.
Proof. exact wal_paths. Qed.
Print Assumptions C80_wal_paths.
Example C80_wal_example : listing [chars "."; wal_name 9; chars "x"; wal_name 4] [9; 4] /\ wal_recover [9; 4] = [4; 9].
Proof.
  split; [|reflexivity]. apply (l_hidden []). apply l_own; [reflexivity|]. apply l_other.
  - intros [|c ds] r D [->|[t ->]] E; try discriminate E; injection E as E _; inversion D as [|x y X _]; subst; destruct X as [_ X]; apply X; reflexivity.
  - apply l_own; [reflexivity|]. apply l_nil.
Qed.

(* other names are taken for partitions and for files of the log *)
Theorem C80_alias_refuted : exists a b c : list byte, a <> b /\ b <> c /\ a <> c /\
  engine_recover_id a = Some (1, ID) /\ engine_recover_id b = Some (1, ID) /\ engine_recover_id c = Some (1, ID).
Proof. exact alias. Qed.
Print Assumptions C80_alias_refuted.
Theorem C80_wal_other_refuted : wal_recover_names [chars "7.wal.old"; chars "7"] = [7; 7].
Proof. exact wal_other. Qed.
Print Assumptions C80_wal_other_refuted.
Theorem C80_wal_last_refuted : wal_recover_names [wal_name (2 ^ 64 - 1)] = [].
Proof. exact wal_last. Qed.
Print Assumptions C80_wal_last_refuted.
(* a long directory: one path for all the files *)
Theorem C80_long_path_refuted : exists d u, forall m1 s1 m2 s2, id_path d [] u m1 s1 = id_path d [] u m2 s2.
Proof. exact long_path. Qed.
Print Assumptions C80_long_path_refuted.
