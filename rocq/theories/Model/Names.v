(* Names of files.
   Sources: /repo/monotone/cloud/cloud/id.h, source.h:331-364; engine/engine/engine_recover.c:24-108;
   engine/engine/op.c (the directories); engine/wal/wal.c:31-167, wal_file.h.
   A name is the list of its bytes, without the terminating zero. isdigit is that of the C locale. *)
From Coq Require Import ZArith NArith Arith List Bool String.
Import ListNotations.
From Verif Require Import Model.Base Model.Json Model.Lex Model.Uuid Model.Wal.
Local Open Scope N_scope.

(* snprintf into an array of [size] bytes *)
Definition cut (size : nat) (text : list byte) : list byte := firstn (size - 1) text.

(* "%020" PRIu64: at least 20 digits; no u64 has more *)
Fixpoint digits (k : nat) (n : N) : list byte :=
  match k with
  | O => []
  | S k => digits k (n / 10) ++ [48 + n mod 10]
  end.
Definition dec20 (n : N) : list byte := digits 20 n.

(* id.h:17-25 *)
Inductive state := ID | INCOMPLETE | COMPLETE | CLOUD | CLOUD_INCOMPLETE.
Definition bit (s : state) : N :=
  match s with ID => 0 | INCOMPLETE => 1 | COMPLETE => 2 | CLOUD => 3 | CLOUD_INCOMPLETE => 4 end.

(* id.h:33-66: the argument of source_pathfmt *)
Definition suffix (s : state) : list byte :=
  chars (match s with
  | ID => ""
  | INCOMPLETE => ".incomplete"
  | COMPLETE => ".complete"
  | CLOUD => ".cloud"
  | CLOUD_INCOMPLETE => ".cloud.incomplete"
  end)%string.
Definition id_name (min : N) (s : state) : list byte := dec20 min ++ suffix s.

(* source.h:331-364 *)
Definition PATH_MAX : nat := 4096.
Definition source_pathfmt (directory spath : list byte) (u : uuid) (path_size : nat) (text : list byte) : list byte :=
  let relative := cut 512 text in
  let id := uuid_to_string u in
  match spath with
  | [] => cut path_size (directory ++ [47] ++ id ++ [47] ++ relative)
  | b :: _ =>
    if b =? 47 then cut path_size (spath ++ [47] ++ id ++ [47] ++ relative)
    else cut path_size (directory ++ [47] ++ spath ++ [47] ++ id ++ [47] ++ relative)
  end.
Definition id_path (directory spath : list byte) (u : uuid) (min : N) (s : state) : list byte :=
  source_pathfmt directory spath u PATH_MAX (id_name min s).

(* the number before the first dot, and what is left; None: a character that is not a digit.
   engine_recover.c:31-38 and wal.c:131-137 *)
Fixpoint before_dot (v : N) (l : list byte) : option (N * list byte) :=
  match l with
  | [] => Some (v, [])
  | c :: t => if c =? 46 then Some (v, l) else if isdigit c then before_dot (w64 (v * 10 + (c - 48))) t else None
  end.

(* strcmp *)
Definition same (a b : list byte) : bool := if list_eq_dec N.eq_dec a b then true else false.

(* engine_recover.c:24-57; None: -1 *)
Definition engine_recover_id (name : list byte) : option (N * state) :=
  match before_dot 0 name with
  | None => None
  | Some (id, rest) =>
    if same rest [] then Some (id, ID)
    else if same rest (suffix INCOMPLETE) then Some (id, INCOMPLETE)
    else if same rest (suffix COMPLETE) then Some (id, COMPLETE)
    else if same rest (suffix CLOUD) then Some (id, CLOUD)
    else if same rest (suffix CLOUD_INCOMPLETE) then Some (id, CLOUD_INCOMPLETE)
    else None
  end.

(* the partitions of a storage with their states; storage_find, storage_add and part_set *)
Fixpoint part_set (parts : list (N * N)) (min : N) (s : state) : list (N * N) :=
  match parts with
  | [] => [(min, N.setbit 0 (bit s))]
  | (m, st) :: rest => if m =? min then (m, N.setbit st (bit s)) :: rest else (m, st) :: part_set rest min s
  end.
Definition hidden (name : list byte) : bool := match name with 46 :: _ => true | _ => false end.

(* engine_recover.c:66-108: the entries in the order of readdir *)
Definition recover_entry (parts : list (N * N)) (name : list byte) : list (N * N) :=
  if hidden name then parts
  else match engine_recover_id name with None => parts | Some (min, s) => part_set parts min s end.
Definition engine_recover_storage (entries : list (list byte)) : list (N * N) := fold_left recover_entry entries [].

(* wal_file.h: "%s/wal/%020" PRIu64 ".wal" *)
Definition wal_name (id : N) : list byte := dec20 id ++ chars ".wal".
Definition wal_path (directory : list byte) (id : N) : list byte :=
  cut PATH_MAX (directory ++ chars "/wal/" ++ wal_name id).

(* wal.c:127-140: the result is an int64_t, and -1 says that it is no file of the log *)
Definition wal_file_id_of (name : list byte) : Z :=
  match before_dot 0 name with
  | None => (-1)%Z
  | Some (id, _) => if id <? 2 ^ 63 then Z.of_N id else (Z.of_N id - 2 ^ 64)%Z
  end.

(* wal.c:147-167 *)
Definition wal_recover_entry (ids : list N) (name : list byte) : list N :=
  if hidden name then ids
  else let id := wal_file_id_of name in
    if (id =? -1)%Z then ids else wal_id_add (Z.to_N (id mod 2 ^ 64)%Z) ids.
Definition wal_recover_names (entries : list (list byte)) : list N := fold_left wal_recover_entry entries [].
