(* Tagged binary values: /repo/monotone/runtime/lib/{data.h,encode.h,decode.h,data_op.h}.
   A position is the list of the bytes after it; reading beyond the end of that list is
   undefined behaviour. Writing is at the end of a buffer (buf.h:87-107 reserves the space),
   so a writer returns the bytes it adds. Tags: data.h:16-48. *)
From Coq Require Import NArith ZArith List Bool.
Import ListNotations.
From Verif Require Import Model.Base Model.Crc Model.Codec.
Local Open Scope res_scope.
Local Open Scope N_scope.

(* data.h:18-24 *)
Definition MN_NULL : N := 0.
Definition MN_TRUE : N := 1.
Definition MN_FALSE : N := 2.
Definition MN_REAL32 : N := 3.
Definition MN_REAL64 : N := 4.
(* first tag of each family (data.h:24,31,37,43); in every family 32 more tags are reserved for
   small values (V0..V31 are 33 tags), then come the 8, 16, 32 and, for integers, 64 bit tags *)
Definition MN_INTV0 : N := 5.
Definition MN_ARRAYV0 : N := 42.
Definition MN_MAPV0 : N := 78.
Definition MN_STRINGV0 : N := 114.

Definition is_int (t : N) : bool := (5 <=? t) && (t <=? 41).        (* data.h:386-389 *)
Definition is_array (t : N) : bool := (42 <=? t) && (t <=? 77).     (* data.h:301-304 *)
Definition is_map (t : N) : bool := (78 <=? t) && (t <=? 113).      (* data.h:211-214 *)
Definition is_string (t : N) : bool := (114 <=? t) && (t <=? 149).  (* data.h:629-632 *)
Definition is_bool (t : N) : bool := (t =? MN_TRUE) || (t =? MN_FALSE).
Definition is_real (t : N) : bool := (t =? MN_REAL32) || (t =? MN_REAL64).

(* k bytes read as a signed little-endian integer *)
Definition sx (k : nat) (n : N) : Z :=
  if n <? 2 ^ (8 * N.of_nat k - 1) then Z.of_N n else (Z.of_N n - 2 ^ (8 * Z.of_nat k))%Z.

Definition take (k : nat) (l : list byte) : res (list byte * list byte) :=
  match slice_of 0 k l with
  | Some a => Ok (a, skipn k l)
  | None => UB
  end.

Definition read_signed (k : nat) (l : list byte) : res (Z * list byte) :=
  do (a, l) <- take k l ; Ok (sx k (le_value a), l).

(* data.h:112-124 *)
Definition data_size_of (v : N) : N :=
  if v <=? 31 then 1 else if v <=? 127 then 2 else if v <=? 32767 then 3
  else if v <=? 2147483647 then 5 else 9.

(* data.h:173-198, 263-288, 582-603: a count or a size, [base] is the first tag of the family *)
Definition data_write_len (base v : N) : list byte :=
  if v <=? 31 then [base + v]
  else if v <=? 127 then (base + 33) :: le 1 v
  else if v <=? 32767 then (base + 34) :: le 2 v
  else (base + 35) :: le 4 v.

(* data.h:201-208, 291-298 *)
Definition data_write_len32 (base v : N) : list byte := (base + 35) :: le 4 v.

(* data.h:139-163, 229-253, 536-562 *)
Definition data_read_len (base : N) (l : list byte) : res (Z * list byte) :=
  match l with
  | [] => UB
  | t :: r =>
    if (base <=? t) && (t <=? base + 32) then Ok (Z.of_N (t - base), r)
    else if t =? base + 33 then read_signed 1 r
    else if t =? base + 34 then read_signed 2 r
    else if t =? base + 35 then read_signed 4 r
    else Err
  end.

(* data.h:351-383; the parameter is a uint64_t *)
Definition data_write_integer (v : N) : list byte :=
  if v <=? 31 then [MN_INTV0 + v]
  else if v <=? 127 then 38 :: le 1 v
  else if v <=? 32767 then 39 :: le 2 v
  else if v <=? 2147483647 then 40 :: le 4 v
  else 41 :: le 8 v.

(* data.h:313-341 *)
Definition data_read_integer (l : list byte) : res (Z * list byte) :=
  match l with
  | [] => UB
  | t :: r =>
    if (5 <=? t) && (t <=? 37) then Ok (Z.of_N (t - MN_INTV0), r)
    else if t =? 38 then read_signed 1 r
    else if t =? 39 then read_signed 2 r
    else if t =? 40 then read_signed 4 r
    else if t =? 41 then read_signed 8 r
    else Err
  end.

(* data.h:420-429, 398-410 *)
Definition data_write_bool (b : bool) : list byte := [if b then MN_TRUE else MN_FALSE].
Definition data_read_bool (l : list byte) : res (bool * list byte) :=
  match l with
  | [] => UB
  | t :: r => if t =? MN_TRUE then Ok (true, r) else if t =? MN_FALSE then Ok (false, r) else Err
  end.

(* data.h:509-515, 501-507 *)
Definition data_write_null : list byte := [MN_NULL].
Definition data_read_null (l : list byte) : res (list byte) :=
  match l with
  | [] => UB
  | t :: r => if t =? MN_NULL then Ok r else Err
  end.

(* A double is its 64-bit pattern. FLT_MIN and FLT_MAX as doubles: *)
Definition FLT_MIN : N := 0x3810000000000000.
Definition FLT_MAX : N := 0x47EFFFFFE0000000.
(* value >= FLT_MIN && value <= FLT_MAX, data.h:441 and 475: both bounds are positive, patterns
   of positive doubles are ordered like their values, negative doubles and NaN are above *)
Definition fits_float (d : N) : bool := (FLT_MIN <=? d) && (d <=? FLT_MAX).
(* (float)d for such a d, rounding to nearest even: 29 bits of the fraction are dropped *)
Definition to_float (d : N) : N :=
  let q := d / 2 ^ 29 in
  let rem := d mod 2 ^ 29 in
  let up := (2 ^ 28 <? rem) || ((rem =? 2 ^ 28) && N.odd q) in
  (if up then q + 1 else q) - (1023 - 127) * 2 ^ 23.
(* (double)f for a normal float f *)
Definition of_float (f : N) : N := (f + (1023 - 127) * 2 ^ 23) * 2 ^ 29.

(* data.h:438-443, 471-486, 445-461 *)
Definition data_size_real (d : N) : N := if fits_float d then 5 else 9.
Definition data_write_real (d : N) : list byte :=
  if fits_float d then MN_REAL32 :: le 4 (to_float d) else MN_REAL64 :: le 8 d.
Definition data_read_real (l : list byte) : res (N * list byte) :=
  match l with
  | [] => UB
  | t :: r =>
    if t =? MN_REAL32 then (do (a, r) <- take 4 r ; Ok (of_float (le_value a), r))
    else if t =? MN_REAL64 then (do (a, r) <- take 8 r ; Ok (le_value a, r))
    else Err
  end.

(* data.h:582-611 *)
Definition data_write_raw (s : list byte) : list byte :=
  data_write_len MN_STRINGV0 (N.of_nat (length s)) ++ s.
(* data.h:536-562; a negative size moves the position backwards *)
Definition data_read_raw (l : list byte) : res (list byte * list byte) :=
  do (n, l) <- data_read_len MN_STRINGV0 l ;
  if (n <? 0)%Z then UB else take (Z.to_nat n) l.

(* data.h:635-698; [fuel] bounds the nesting *)
Fixpoint times {A} (n : nat) (f : A -> res A) (a : A) : res A :=
  match n with
  | O => Ok a
  | S n => do a <- f a ; times n f a
  end.

Fixpoint data_skip_at (fuel : nat) (l : list byte) : res (list byte) :=
  match fuel with
  | O => UB
  | S fuel =>
    match l with
    | [] => UB
    | t :: _ =>
      if is_bool t then (do (_, l) <- data_read_bool l ; Ok l)
      else if t =? MN_NULL then data_read_null l
      else if is_real t then (do (_, l) <- data_read_real l ; Ok l)
      else if is_int t then (do (_, l) <- data_read_integer l ; Ok l)
      else if is_array t then
        (do (n, l) <- data_read_len MN_ARRAYV0 l ; times (Z.to_nat n) (data_skip_at fuel) l)
      else if is_map t then
        (do (n, l) <- data_read_len MN_MAPV0 l ;
         times (Z.to_nat n) (fun l => do l <- data_skip_at fuel l ; data_skip_at fuel l) l)
      else if is_string t then (do (_, l) <- data_read_raw l ; Ok l)
      else Err
    end
  end.
Definition data_skip (l : list byte) : res (list byte) := data_skip_at (S (length l)) l.

(* str_compare_raw (str.h:96-100) *)
Fixpoint same_bytes (a b : list byte) : bool :=
  match a, b with
  | [], [] => true
  | x :: a, y :: b => (x =? y) && same_bytes a b
  | _, _ => false
  end.

(* data_op.h:16-31: the position of the value, or none *)
Fixpoint map_find_loop (n : nat) (name : list byte) (l : list byte) : res (option (list byte)) :=
  match n with
  | O => Ok None
  | S n =>
    do (key, l) <- data_read_raw l ;
    if same_bytes key name then Ok (Some l)
    else (do l <- data_skip l ; map_find_loop n name l)
  end.
Definition map_find (name : list byte) (l : list byte) : res (option (list byte)) :=
  do (n, l) <- data_read_len MN_MAPV0 l ; map_find_loop (Z.to_nat n) name l.

(* data_op.h:67-79, for positions from 0 *)
Definition array_find (p : nat) (l : list byte) : res (option (list byte)) :=
  do (n, l) <- data_read_len MN_ARRAYV0 l ;
  if (n <=? Z.of_nat p)%Z then Ok None
  else (do l <- times p data_skip l ; Ok (Some l)).

(* decode.h:36-131. The table of expected keys is a list of key and kind; the outcome holds for
   each key the value read last. A uuid is read as a string, its text is checked by the caller
   (uuid.c). Kinds DECODE_REAL and DECODE_NULL test for a bool before they read a real or a null
   (decode.h:95,104): no bytes pass both. *)
Inductive kind := KUuid | KString | KInt | KBool | KReal | KNull.
Inductive field := FString (s : list byte) | FInt (z : Z) | FBool (b : bool) | FReal (d : N) | FNull.

Definition decode_field (k : kind) (l : list byte) : res (field * list byte) :=
  match l with
  | [] => UB
  | t :: _ =>
    match k with
    | KUuid | KString =>
      if is_string t then (do (s, l) <- data_read_raw l ; Ok (FString s, l)) else Err
    | KInt => if is_int t then (do (z, l) <- data_read_integer l ; Ok (FInt z, l)) else Err
    | KBool => if is_bool t then (do (b, l) <- data_read_bool l ; Ok (FBool b, l)) else Err
    | KReal => if is_bool t then (do (d, l) <- data_read_real l ; Ok (FReal d, l)) else Err
    | KNull => if is_bool t then (do l <- data_read_null l ; Ok (FNull, l)) else Err
    end
  end.

Definition table := list (list byte * kind * option field).
(* decode.h:48-111: the first entry with this key *)
Fixpoint decode_key (t : table) (key : list byte) (l : list byte) : res (option (table * list byte)) :=
  match t with
  | [] => Ok None
  | (k, kd, v) :: t =>
    if same_bytes key k then
      (do (f, l) <- decode_field kd l ; Ok (Some ((k, kd, Some f) :: t, l)))
    else
      (do o <- decode_key t key l ;
       Ok (match o with Some (t', l) => Some ((k, kd, v) :: t', l) | None => None end))
  end.

Fixpoint decode_loop (n : nat) (t : table) (l : list byte) : res (table * list byte) :=
  match n with
  | O => Ok (t, l)
  | S n =>
    do (key, l) <- data_read_raw l ;
    do o <- decode_key t key l ;
    match o with
    | Some (t, l) => decode_loop n t l
    | None => do l <- data_skip l ; decode_loop n t l
    end
  end.

Definition found (e : list byte * kind * option field) : bool :=
  match snd e with Some _ => true | None => false end.

Definition decode_map (keys : list (list byte * kind)) (l : list byte) : res (table * list byte) :=
  do (n, l) <- data_read_len MN_MAPV0 l ;
  do (t, l) <- decode_loop (Z.to_nat n) (map (fun k => (k, None)) keys) l ;
  if forallb found t then Ok (t, l) else Err.
