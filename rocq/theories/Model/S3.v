(* Requests to S3: /repo/monotone/cloud/s3/{s3_request.c,s3_op.c,s3.c}.
   HMAC of openssl, the clock and the transfer of curl are parameters. curl calls the callbacks as
   documented: it reads until it has CURLOPT_INFILESIZE bytes or gets none, and fails a request that
   has fewer; it writes what it receives in pieces, and fails when fewer bytes are taken.
   Texts are lists of bytes without zero. *)
From Coq Require Import NArith Arith List Bool String.
Import ListNotations.
From Verif Require Import Model.Base Model.Lex Model.Json Model.Uuid Model.Names Model.Vfs.
Local Open Scope N_scope.
Local Open Scope res_scope.

(* s3_request.c:29-30 *)
Definition b64_chars : list byte := chars "ABCDEFGHIJKLMNOPQRSTUVWXYZabcdefghijklmnopqrstuvwxyz0123456789+/".
Definition b64 (v : N) : byte := nth (N.to_nat (N.land v 63)) b64_chars 0.

(* s3_request.c:34-49: what is written, in order; v is an unsigned long *)
Fixpoint b64_loop (i : nat) (v : N) (raw : list byte) : list byte :=
  match raw with
  | [] => [b64 (N.shiftr v 10); b64 (N.shiftr v 4); b64 (w64 (N.shiftl v 2)); 61; 0]
  | d :: raw =>
    let v := N.lor (w64 (N.shiftl v 8)) d in
    if (i mod 3 =? 2)%nat then [b64 (N.shiftr v 18); b64 (N.shiftr v 12); b64 (N.shiftr v 6); b64 v] ++ b64_loop (S i) 0 raw
    else b64_loop (S i) v raw
  end.
(* [room] is the size of the array; the last byte written is the zero *)
Definition s3_request_encode_base64 (room : nat) (raw : list byte) : res (list byte) :=
  let l := b64_loop 0 0 raw in
  if (room <? List.length l)%nat then UB else Ok (removelast l).

Record request := mk_request {
  rq_method : string; rq_type : option string; rq_length : N; rq_range : option (list byte);
  rq_uuid : uuid; rq_id : option N }.
Record s3_config := mk_s3 { s3_url : list byte; s3_login : list byte; s3_password : list byte }.

Section S3.
Variable hmac : list byte -> list byte -> list byte.  (* key, message: 20 bytes *)

(* s3_request.c:71-103: the text that is signed, its size as snprintf gives it *)
Definition header_text (r : request) (date : list byte) : list byte :=
  chars (rq_method r) ++ [10; 10] ++ chars (match rq_type r with Some t => t | None => EmptyString end) ++ [10] ++ date ++ [10] ++
  [47] ++ uuid_to_string (rq_uuid r) ++ match rq_id r with Some m => [47] ++ dec20 m | None => [] end.
Definition url_text (c : s3_config) (r : request) : list byte :=
  cut 1024 (s3_url c ++ [47] ++ uuid_to_string (rq_uuid r) ++ match rq_id r with Some m => [47] ++ dec20 m | None => [] end).

(* s3_request.c:52-127: url and authorization; [room] is the size of digest_base64, 28 in the code.
   HMAC reads header_size bytes of header[256] *)
Definition s3_request_prepare (room : nat) (c : s3_config) (r : request) (date : list byte) : res (list byte * list byte) :=
  let header := header_text r date in
  if (256 <? List.length header)%nat then UB
  else
    do b <- s3_request_encode_base64 room (hmac (s3_password c) header) ;
    Ok (url_text c r, cut 256 (chars "AWS " ++ s3_login c ++ [58] ++ b)).

(* "%" PRIu64 *)
Definition dec_u64 (n : N) : list byte := dec_n 20 n.
(* s3_request.c:173-201: the lines of the request *)
Definition headers (r : request) (date auth : list byte) : list (list byte) :=
  [cut 512 (chars "Date: " ++ date)]
  ++ match rq_type r with
     | Some t => [cut 512 (chars "Content-Type: " ++ chars t); cut 512 (chars "Content-Length: " ++ dec_u64 (rq_length r))]
     | None => [] end
  ++ match rq_range r with Some g => [cut 512 (chars "Range: " ++ g)] | None => [] end
  ++ [cut 512 (chars "Authorization: " ++ auth)].
Definition s3_request (room : nat) (c : s3_config) (r : request) (date : list byte) : res (list byte * list (list byte)) :=
  do p <- s3_request_prepare room c r date ;
  let '(url, auth) := p in
  Ok (url, headers r date auth).
End S3.

(* s3_op.c:33-53, 76-102, 104-124, 139-167, 169-189, 191-211 *)
Definition octets : string := "application/octet-stream".
Definition s3_op_download (u : uuid) (id : N) : request := mk_request "GET" None 0 None u (Some id).
Definition s3_op_upload (u : uuid) (id size : N) : request := mk_request "PUT" (Some octets) size None u (Some id).
Definition s3_op_delete (u : uuid) (id : N) : request := mk_request "DELETE" None 0 None u (Some id).
(* [size] is a uint32_t: size - 1 is unsigned *)
Definition range_end (size offset : N) : N := w64 (offset + (size + 2 ^ 32 - 1) mod 2 ^ 32).
Definition range_text (size offset : N) : list byte :=
  cut 128 (chars "bytes=" ++ dec_u64 offset ++ [45] ++ dec_u64 (range_end size offset)).
Definition s3_op_read (u : uuid) (id size offset : N) : request := mk_request "GET" None 0 (Some (range_text size offset)) u (Some id).
Definition s3_op_create_bucket (u : uuid) : request := mk_request "PUT" (Some octets) 0 None u None.
Definition s3_op_drop_bucket (u : uuid) : request := mk_request "DELETE" None 0 None u None.

(* s3_op.c:55-74: what curl gets when it asks for at most [limits] bytes each time *)
Fixpoint upload_bytes (s : list answer) (limits : list nat) (f : file) (offset : nat) : list byte :=
  match limits with
  | [] => []
  | limit :: limits =>
    let left := (fl_size f - offset)%nat in
    let size := if (left <? limit)%nat then left else limit in
    match vfs_read_at [] s (fd_data (fl_fd f)) (fd_pos (fl_fd f)) size with
    | RDone l s => l ++ upload_bytes s limits (mk_file (mk_fd (fd_data (fl_fd f)) (fd_pos (fl_fd f) + size)) (fl_size f)) (offset + size)
    | _ => []
    end
  end.
(* the object made of a file that was opened, s3.c:153-176; Err: the request failed *)
Definition s3_upload (s : list answer) (limits : list nat) (content : list byte) : res (list byte) :=
  let f := Vfs.file_open content in
  let l := firstn (fl_size f) (upload_bytes s limits f 0) in
  if (List.length l =? fl_size f)%nat then Ok l else Err.

(* s3_op.c:23-31: the pieces of the object as they are received; the file, and whether all were taken *)
Fixpoint download_pieces (s : list answer) (f : file) (pieces : list (list byte)) : file * bool :=
  match pieces with
  | [] => (f, true)
  | l :: pieces =>
    match Vfs.file_write s f l with
    | FDone f s => download_pieces s f pieces
    | FFail f s => match l with [] => download_pieces s f pieces | _ => (f, false) end
    | FBusy f => (f, false)
    end
  end.
(* s3.c:115-151: the file is new *)
Definition s3_download (s : list answer) (pieces : list (list byte)) : res (list byte) :=
  let '(f, ok) := download_pieces s (Vfs.file_create None) pieces in
  if ok then Ok (fd_data (fl_fd f)) else Err.

(* what a server sends for "bytes=a-b", as HTTP defines it: a server may also send all *)
Inductive server := Ranges | Whole.
Definition sent (v : server) (object : list byte) (a b : N) : list byte :=
  match v with
  | Ranges => firstn (N.to_nat (b + 1 - a)) (skipn (N.to_nat a) object)
  | Whole => object
  end.
(* s3_op.c:126-167: what is received is added to the buffer *)
Definition s3_read (v : server) (object buf : list byte) (size offset : N) : list byte :=
  buf ++ sent v object offset (range_end size offset).

(* s3_request.c:255-266: "s3: HTTP %d (%s)" with str_size(name), str_of(name), code, str;
   the name has no zero and is followed by one *)
Definition http_error (name : list byte) (code : N) (text : list byte) : list byte :=
  chars "s3: HTTP " ++ dec_u64 (N.of_nat (List.length name)) ++ chars " (" ++ name ++ chars ")".
