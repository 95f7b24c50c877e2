(* JSON text: /repo/monotone/runtime/lib/json.c.
   The parser position is the list of the characters after it (sizes and positions are int:
   texts of 2^31 characters and more are outside of this model). A char is signed. The result -1
   of the parser is Err; other results of the code that are not positive are kept as they are.
   Signed overflow while reading an integer is undefined behaviour. strtod and the "%f" of
   snprintf are parameters: strtod gives the double and the number of characters it used, or
   nothing if errno is ERANGE after it (the code does not reset errno). *)
From Coq Require Import NArith ZArith List Bool.
Import ListNotations.
From Verif Require Import Model.Base Model.Data.
Local Open Scope res_scope.
Local Open Scope N_scope.

Section JSON.
Variable strtod : list byte -> option (N * nat).
Variable fmt_real : N -> list byte.

Definition isspace (b : byte) : bool := (b =? 32) || ((9 <=? b) && (b <=? 13)).
Definition isdigit (b : byte) : bool := (48 <=? b) && (b <=? 57).
Definition schar (b : byte) : Z := if b <? 128 then Z.of_N b else (Z.of_N b - 256)%Z.

Fixpoint skip_space (l : list byte) : list byte :=
  match l with
  | b :: t => if isspace b then skip_space t else l
  | [] => []
  end.

(* json.c:42-54 *)
Definition json_next (n : nat) (l : list byte) : res (Z * list byte) :=
  if (length l <? n)%nat then Err
  else let l := skip_space (skipn n l) in
       match l with
       | [] => Ok (0%Z, [])
       | b :: _ => Ok (schar b, l)
       end.

(* json.c:160-174: the characters before the closing quote, and what follows it *)
Fixpoint scan_string (slash : bool) (l : list byte) : option (list byte * list byte) :=
  match l with
  | [] => None
  | b :: t =>
    let more (slash : bool) := match scan_string slash t with Some (s, r) => Some (b :: s, r) | None => None end in
    if slash then more false
    else if b =? 92 then more true
    else if b =? 34 then Some ([], t)
    else more false
  end.

(* json.c:182-203 *)
Fixpoint starts_with (w l : list byte) : option (list byte) :=
  match w, l with
  | [], _ => Some l
  | x :: w, y :: l => if x =? y then starts_with w l else None
  | _, [] => None
  end.
Definition txt_null : list byte := [110; 117; 108; 108].
Definition txt_true : list byte := [116; 114; 117; 101].
Definition txt_false : list byte := [102; 97; 108; 115; 101].

(* json.c:222-238: None is the jump to fp *)
Fixpoint scan_int (v : Z) (l : list byte) : res (option (Z * list byte)) :=
  match l with
  | [] => Ok (Some (v, []))
  | b :: t =>
    if (b =? 46) || (b =? 101) || (b =? 69) then Ok None
    else if negb (isdigit b) then Ok (Some (v, l))
    else if (2 ^ 63 - 1 <? v * 10 + Z.of_N b)%Z then UB
    else scan_int (v * 10 + Z.of_N b - 48)%Z t
  end.

Definition neg_real (d : N) : N := N.lxor d (2 ^ 63).

(* json.c:204-254; [l] starts with the first character of the number *)
Definition read_real (neg : bool) (l : list byte) : res (list byte * list byte) :=
  match strtod l with
  | None => Err
  | Some (d, n) =>
    if (length l <? n)%nat then Err
    else Ok (skipn n l, data_write_real (if neg then neg_real d else d))
  end.
Definition read_number (l : list byte) : res (list byte * list byte) :=
  let neg := match l with b :: _ => b =? 45 | [] => false end in
  let l := if neg then skipn 1 l else l in
  match l with
  | [] => Err
  | b :: _ =>
    if b =? 46 then read_real neg l
    else do o <- scan_int 0 l ;
         match o with
         | None => read_real neg l
         | Some (v, l) => Ok (l, data_write_integer (Z.to_N ((if neg then - v else v) mod 2 ^ 64)))
         end
  end.

Definition is_number (b : byte) : bool := (b =? 46) || (b =? 45) || isdigit b.

(* json.c:56-259: token, what is left, bytes written. The header of an array or a map is written
   first with count 0 and patched at the end: here it is written once. *)
Definition jout := (Z * list byte * list byte)%type.

(* json.c:81-99: elements up to the closing bracket; each turn is one element *)
Fixpoint read_elems (n : nat) (read : list byte -> res jout) (l : list byte) : res (nat * list byte * list byte) :=
  match n with
  | O => UB
  | S n =>
    do (tok, l, out) <- read l ;
    if (tok <=? 0)%Z then Err
    else do (c, l) <- json_next 0 l ;
    if (c =? 93)%Z then Ok (1%nat, skipn 1 l, out)
    else if negb (c =? 44)%Z then Err
    else do (c, l) <- json_next 1 l ;
    if (c <=? 0)%Z then Err
    else do (k, l, rest) <- read_elems n read l ; Ok (S k, l, out ++ rest)
  end.

(* json.c:122-150 *)
Fixpoint read_pairs (n : nat) (read : nat -> list byte -> res jout) (l : list byte) : res (nat * list byte * list byte) :=
  match n with
  | O => UB
  | S n =>
    do (tok, l, out) <- read 0%nat l ;
    if negb (tok =? 34)%Z then Err
    else do (c, l) <- json_next 0 l ;
    if negb (c =? 58)%Z then Err
    else do (tok, l, out2) <- read 1%nat l ;
    if (tok =? -1)%Z then Err
    else do (c, l) <- json_next 0 l ;
    if (c =? 125)%Z then Ok (1%nat, skipn 1 l, out ++ out2)
    else if negb (c =? 44)%Z then Err
    else do (c, l) <- json_next 1 l ;
    if (c <=? 0)%Z then Err
    else do (k, l, rest) <- read_pairs n read l ; Ok (S k, l, out ++ out2 ++ rest)
  end.

Fixpoint json_read (fuel : nat) (skip : nat) (l : list byte) : res jout :=
  match fuel with
  | O => UB
  | S fuel =>
    do (token, l) <- json_next skip l ;
    if (token <=? 0)%Z then Ok (token, l, [])
    else
    match l with
    | [] => UB
    | b :: t =>
      if b =? 91 then                                        (* '[' *)
        (do (c, l) <- json_next 1 l ;
         if (c <=? 0)%Z then Err
         else if (c =? 93)%Z then Ok (token, skipn 1 l, data_write_len32 MN_ARRAYV0 0)
         else do (k, l, out) <- read_elems fuel (json_read fuel 0) l ;
              Ok (token, l, data_write_len32 MN_ARRAYV0 (N.of_nat k) ++ out))
      else if b =? 123 then                                  (* '{' *)
        (do (c, l) <- json_next 1 l ;
         if (c <=? 0)%Z then Err
         else if (c =? 125)%Z then Ok (token, skipn 1 l, data_write_len32 MN_MAPV0 0)
         else do (k, l, out) <- read_pairs fuel (json_read fuel) l ;
              Ok (token, l, data_write_len32 MN_MAPV0 (N.of_nat k) ++ out))
      else if b =? 34 then                                   (* string *)
        match scan_string false t with
        | None => Err
        | Some (s, r) => Ok (token, r, data_write_raw s)
        end
      else if b =? 110 then
        match starts_with txt_null l with Some r => Ok (token, r, data_write_null) | None => Err end
      else if b =? 116 then
        match starts_with txt_true l with Some r => Ok (token, r, data_write_bool true) | None => Err end
      else if b =? 102 then
        match starts_with txt_false l with Some r => Ok (token, r, data_write_bool false) | None => Err end
      else if is_number b then (do (r, out) <- read_number l ; Ok (token, r, out))
      else Err
    end
  end.

(* json.c:261-272: what is left is ignored; the bytes are empty if nothing was read *)
Definition json_parse (text : list byte) : res (list byte) :=
  do (tok, _, out) <- json_read (S (length text)) 0 text ;
  if (tok =? -1)%Z then Err else Ok out.

(* "%" PRIi64 *)
Fixpoint dec_n (fuel : nat) (n : N) : list byte :=
  match fuel with
  | O => []
  | S fuel => if n <? 10 then [48 + n] else dec_n fuel (n / 10) ++ [48 + n mod 10]
  end.
Definition dec (z : Z) : list byte :=
  if (z <? 0)%Z then 45 :: dec_n 20 (Z.to_N (- z)) else dec_n 20 (Z.to_N z).

Definition indent (n : nat) : list byte := concat (repeat [32; 32] n).

(* json.c:274-385: the text, and the position after the value *)
Fixpoint export_elems (n : nat) (export : list byte -> res (list byte * list byte)) (l : list byte) : res (list byte * list byte) :=
  match n with
  | O => Ok ([], l)
  | S n =>
    do (t, l) <- export l ;
    do (ts, l) <- export_elems n export l ;
    Ok (t ++ (match n with O => [] | _ => [44; 32] end) ++ ts, l)
  end.
Fixpoint export_pairs (n : nat) (pretty : bool) (deep : nat) (export : list byte -> res (list byte * list byte)) (l : list byte) : res (list byte * list byte) :=
  match n with
  | O => Ok ([], l)
  | S n =>
    do (k, l) <- export l ;
    do (v, l) <- export l ;
    do (ts, l) <- export_pairs n pretty deep export l ;
    Ok ((if pretty then indent (S deep) else []) ++ k ++ [58; 32] ++ v ++
        (match n, pretty with
         | O, true => [10] | O, false => [] | _, true => [44; 10] | _, false => [44; 32] end) ++ ts, l)
  end.

(* json.c:277, 295-303: snprintf into buf[32], then buf_write of as many bytes as the text has *)
Definition real_text (t : list byte) : res (list byte) :=
  if (length t <=? 31)%nat then Ok t
  else if (length t =? 32)%nat then Ok (firstn 31 t ++ [0])
  else UB.

Fixpoint json_export_as (fuel : nat) (pretty : bool) (deep : nat) (l : list byte) : res (list byte * list byte) :=
  match fuel with
  | O => UB
  | S fuel =>
    match l with
    | [] => UB
    | t :: _ =>
      if t =? MN_NULL then (do l <- data_read_null l ; Ok (txt_null, l))
      else if is_bool t then (do (b, l) <- data_read_bool l ; Ok ((if b then txt_true else txt_false), l))
      else if is_real t then (do (d, l) <- data_read_real l ; do t <- real_text (fmt_real d) ; Ok (t, l))
      else if is_int t then (do (z, l) <- data_read_integer l ; Ok (dec z, l))
      else if is_string t then (do (s, l) <- data_read_raw l ; Ok (34 :: s ++ [34], l))
      else if is_array t then
        (do (n, l) <- data_read_len MN_ARRAYV0 l ;
         do (ts, l) <- export_elems (Z.to_nat n) (json_export_as fuel pretty deep) l ;
         Ok (91 :: ts ++ [93], l))
      else if is_map t then
        (do (n, l) <- data_read_len MN_MAPV0 l ;
         do (ts, l) <- export_pairs (Z.to_nat n) pretty deep (json_export_as fuel pretty (S deep)) l ;
         Ok ((if pretty then [123; 10] else [123]) ++ ts ++ (if pretty then indent deep else []) ++ [125], l))
      else Err
    end
  end.
(* json.c:387-397 *)
Definition json_export (pretty : bool) (l : list byte) : res (list byte * list byte) :=
  json_export_as (S (length l)) pretty 0 l.
End JSON.
