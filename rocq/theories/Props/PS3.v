(* C81: requests to S3. *)
From Coq Require Import NArith Arith List Bool String.
Import ListNotations.
From Verif Require Import Model.Base Model.Lex Model.Uuid Model.Names Model.Vfs Model.S3 Spec.Units Spec.S3 Proof.S3L.
Local Open Scope N_scope.

(* with the array of 28 bytes that the code has, every request writes one byte past it *)
Theorem C81_overflow_refuted : forall hmac, (forall k m, List.length (hmac k m) = 20%nat /\ Forall (fun b => b < 256) (hmac k m)) ->
  forall c r date, known r -> (List.length date < 64)%nat -> s3_request hmac 28 c r date = UB.
Proof. exact room28. Qed.
Print Assumptions C81_overflow_refuted.
(* with one byte more: the url of the object, and its signature *)
Theorem C81_signed : forall hmac, (forall k m, List.length (hmac k m) = 20%nat /\ Forall (fun b => b < 256) (hmac k m)) ->
  forall c r date, known r -> (List.length date < 64)%nat -> (List.length (s3_url c) <= 965)%nat -> (List.length (s3_login c) <= 222)%nat ->
  exists sign, base64_20 (hmac (s3_password c) (to_sign (rq_method r) (type_of r) date (resource r))) sign /\
    s3_request hmac 29 c r date = Ok (s3_url c ++ resource r, headers r date (chars "AWS " ++ s3_login c ++ chars ":" ++ sign)).
Proof. exact room29. Qed.
Print Assumptions C81_signed.
Example C81_signed_example :
  let hmac := fun _ _ => map N.of_nat (seq 240 16) ++ [0; 1; 2; 3] in
  known (s3_op_read (mk_uuid 1 2) 30 100 7) /\
  s3_request hmac 29 (mk_s3 (chars "http://h:9000") (chars "me") (chars "secret")) (s3_op_read (mk_uuid 1 2) 30 100 7) (chars "Mon, 01 Jan 2024 00:00:00 GMT") =
  Ok (chars "http://h:9000/00000001-0000-0000-0002-000000000000/00000000000000000030",
      [chars "Date: Mon, 01 Jan 2024 00:00:00 GMT"; chars "Range: bytes=7-106"; chars "Authorization: AWS me:8PHy8/T19vf4+fr7/P3+/wABAgM="]).
Proof. split; [right; right; right; left; repeat eexists|vm_compute; reflexivity]. Qed.
Theorem C81_lines : forall r date auth, known r -> (List.length date < 64)%nat -> (List.length auth <= 255)%nat -> headers r date auth = lines r date auth.
Proof. exact headers_whole. Qed.
Print Assumptions C81_lines.

Theorem C81_operations : forall u id size offset,
  asks (s3_op_download u id) "GET" u (Some id) [] /\
  (size < 2 ^ 64 -> exists n, Forall digit n /\ n <> [] /\ number n = size /\
     asks (s3_op_upload u id size) "PUT" u (Some id) (octet_lines n)) /\
  asks (s3_op_delete u id) "DELETE" u (Some id) [] /\
  (1 <= size -> size < 2 ^ 32 -> offset + size <= 2 ^ 64 ->
     exists a b, Forall digit a /\ Forall digit b /\ a <> [] /\ b <> [] /\ number a = offset /\ number b + 1 = offset + size /\
       asks (s3_op_read u id size offset) "GET" u (Some id) [chars "Range: bytes=" ++ a ++ chars "-" ++ b]) /\
  asks (s3_op_create_bucket u) "PUT" u None (octet_lines (chars "0")) /\
  asks (s3_op_drop_bucket u) "DELETE" u None [].
Proof. exact operations. Qed.
Print Assumptions C81_operations.

(* objects have urls of their own when the url of the cloud is not long *)
Theorem C81_urls : forall c r1 r2, (List.length (s3_url c) <= 965)%nat ->
  u_a (rq_uuid r1) < 2 ^ 64 -> u_b (rq_uuid r1) < 2 ^ 64 -> u_a (rq_uuid r2) < 2 ^ 64 -> u_b (rq_uuid r2) < 2 ^ 64 ->
  (forall m, rq_id r1 = Some m -> m < 2 ^ 64) -> (forall m, rq_id r2 = Some m -> m < 2 ^ 64) ->
  url_text c r1 = url_text c r2 -> rq_uuid r1 = rq_uuid r2 /\ rq_id r1 = rq_id r2.
Proof. exact urls. Qed.
Print Assumptions C81_urls.
(* one byte longer, and ten partitions have one object *)
Theorem C81_urls_refuted : exists url, List.length url = 966%nat /\ forall login password u m1 m2,
  m1 / 10 = m2 / 10 -> let c := mk_s3 url login password in url_text c (s3_op_delete u m1) = url_text c (s3_op_delete u m2).
Proof. exact long_url_drop. Qed.
Print Assumptions C81_urls_refuted.

(* a read asks for its bytes *)
Theorem C81_range : forall size offset, 1 <= size -> size < 2 ^ 32 -> offset + size <= 2 ^ 64 ->
  exists a b, range_text size offset = chars "bytes=" ++ a ++ chars "-" ++ b /\ Forall digit a /\ Forall digit b /\ a <> [] /\ b <> [] /\
    number a = offset /\ number b + 1 = offset + size.
Proof. exact range_says. Qed.
Print Assumptions C81_range.
Example C81_range_example : range_text 100 7 = chars "bytes=7-106".
Proof. vm_compute. reflexivity. Qed.
Theorem C81_read : forall object buf size offset,
  1 <= size -> size < 2 ^ 32 -> offset + size <= N.of_nat (List.length object) -> offset + size <= 2 ^ 64 ->
  exists part, s3_read Ranges object buf size offset = buf ++ part /\ List.length part = N.to_nat size /\
    forall i, (i < N.to_nat size)%nat -> nth_error part i = nth_error object (N.to_nat offset + i).
Proof. exact read_range. Qed.
Print Assumptions C81_read.
(* a server that sends all of the object, as HTTP permits: it is taken for the bytes asked for *)
Theorem C81_whole_refuted : exists object size offset, 1 <= size /\ offset + size <= N.of_nat (List.length object) /\
  List.length (s3_read Whole object [] size offset) <> N.to_nat size.
Proof. exact read_whole. Qed.
Print Assumptions C81_whole_refuted.
Theorem C81_zero_refuted : forall object offset, offset + 2 ^ 32 <= 2 ^ 64 -> N.of_nat (List.length object) <= offset + 2 ^ 32 ->
  s3_read Ranges object [] 0 offset = skipn (N.to_nat offset) object.
Proof. exact read_none. Qed.
Print Assumptions C81_zero_refuted.

(* whatever the pieces and failures, an object that was sent or received without an error is whole *)
Theorem C81_upload : forall s limits content object, s3_upload s limits content = Ok object -> object = content.
Proof. exact upload_whole. Qed.
Print Assumptions C81_upload.
Example C81_upload_example : s3_upload [ADone 2; AIntr; ADone 1; ADone 9; ADone 9] [3; 1; 5]%nat [1; 2; 3; 4; 5; 6] = Ok [1; 2; 3; 4; 5; 6].
Proof. vm_compute. reflexivity. Qed.
Theorem C81_download : forall s pieces content, s3_download s pieces = Ok content -> content = List.concat pieces.
Proof. exact download_whole. Qed.
Print Assumptions C81_download.
Example C81_download_example : s3_download [ADone 2; AIntr; ADone 1; ADone 9; ADone 0; ADone 9] [[1; 2; 3]; [4]; []; [5; 6]] = Ok [1; 2; 3; 4; 5; 6].
Proof. vm_compute. reflexivity. Qed.

(* the error of a failed request does not tell the code that the server gave *)
Theorem C81_error_refuted : forall name text c1 c2, http_error name c1 text = http_error name c2 text.
Proof. exact error_text. Qed.
Print Assumptions C81_error_refuted.
Theorem C81_error : forall name code text, N.of_nat (List.length name) < 2 ^ 64 ->
  exists n, Forall digit n /\ n <> [] /\ number n = N.of_nat (List.length name) /\
    http_error name code text = chars "s3: HTTP " ++ n ++ chars " (" ++ name ++ chars ")".
Proof. exact error_says. Qed.
Print Assumptions C81_error.
