(* What a request to S3 says (signature version 2), and base64. *)
From Coq Require Import NArith Arith List Bool String.
Import ListNotations.
From Verif Require Import Model.Base Model.Lex Model.Uuid Model.Names Model.S3.
Local Open Scope N_scope.

(* RFC 4648: the value of a character *)
Definition value64 (c : byte) : option N :=
  if (65 <=? c) && (c <=? 90) then Some (c - 65)
  else if (97 <=? c) && (c <=? 122) then Some (c - 97 + 26)
  else if (48 <=? c) && (c <=? 57) then Some (c - 48 + 52)
  else if c =? 43 then Some 62 else if c =? 47 then Some 63 else None.
Fixpoint number64 (v : N) (l : list byte) : option N :=
  match l with
  | [] => Some v
  | c :: l => match value64 c with Some x => number64 (v * 64 + x) l | None => None end
  end.
Definition number256 (l : list byte) : N := fold_left (fun v b => v * 256 + b) l 0.

(* 20 bytes are 160 bits: 27 characters of 6 bits, of which the last two are zeros, and one '=' *)
Definition base64_20 (raw text : list byte) : Prop :=
  exists l, text = l ++ chars "=" /\ List.length l = 27%nat /\ number64 0 l = Some (number256 raw * 4).

(* what is signed: method, no digest of the content, type, date, resource *)
Definition newline : list byte := [10].
Definition to_sign (method type : string) (date resource : list byte) : list byte :=
  chars method ++ newline ++ newline ++ chars type ++ newline ++ date ++ newline ++ resource.

(* the requests that are made: /uuid of the storage, and the partition in it *)
Definition resource (r : request) : list byte :=
  [47] ++ uuid_to_string (rq_uuid r) ++ match rq_id r with Some m => [47] ++ dec20 m | None => [] end.
Definition type_of (r : request) : string := match rq_type r with Some t => t | None => EmptyString end.
Definition known (r : request) : Prop :=
  (exists u id, r = s3_op_download u id) \/ (exists u id size, r = s3_op_upload u id size) \/ (exists u id, r = s3_op_delete u id) \/
  (exists u id size offset, r = s3_op_read u id size offset) \/ (exists u, r = s3_op_create_bucket u) \/ exists u, r = s3_op_drop_bucket u.

(* the lines of a request *)
Definition lines (r : request) (date auth : list byte) : list (list byte) :=
  [chars "Date: " ++ date]
  ++ match rq_type r with Some t => [chars "Content-Type: " ++ chars t; chars "Content-Length: " ++ dec_u64 (rq_length r)] | None => [] end
  ++ match rq_range r with Some g => [chars "Range: " ++ g] | None => [] end
  ++ [chars "Authorization: " ++ auth].

(* what each operation is to ask for: method, object, and the lines between the date and the authorization *)
Definition octet_lines (n : list byte) : list (list byte) :=
  [chars "Content-Type: application/octet-stream"; chars "Content-Length: " ++ n].
Definition asks (r : request) (method : string) (u : uuid) (id : option N) (middle : list (list byte)) : Prop :=
  rq_method r = method /\
  (resource r = chars "/" ++ uuid_to_string u ++ match id with Some m => chars "/" ++ dec20 m | None => [] end) /\
  forall date auth, (List.length date < 64)%nat -> (List.length auth <= 255)%nat ->
    headers r date auth = [chars "Date: " ++ date] ++ middle ++ [chars "Authorization: " ++ auth].
