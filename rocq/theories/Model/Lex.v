(* Tokens of commands: /repo/monotone/main/command/{lex.h,lex.c}.
   The position is the list of the characters after it. isspace, isalpha, isdigit and ispunct are
   those of the C locale. strtod is a parameter: the double and the number of characters it used,
   or nothing if it reports ERANGE. *)
From Coq Require Import NArith Arith List Bool String Ascii.
Import ListNotations.
From Verif Require Import Model.Base Model.Json.
Local Open Scope res_scope.
Local Open Scope N_scope.

Definition chars (s : string) : list byte := map N_of_ascii (list_ascii_of_string s).

(* lex.h:19-83 *)
Definition KEOF := 0. Definition KREAL := 1. Definition KINT := 2. Definition KSTRING := 3. Definition KNAME := 4.
Definition KTRUE := 5. Definition KFALSE := 6.
Definition KUSEC := 7. Definition KMSEC := 8. Definition KSEC := 9. Definition KMIN := 10. Definition KHOUR := 11.
Definition KDAY := 12. Definition KWEEK := 13. Definition KMONTH := 14. Definition KYEAR := 15.
Definition KKB := 16. Definition KKIB := 17. Definition KMB := 18. Definition KMIB := 19.
Definition KGB := 20. Definition KGIB := 21. Definition KTB := 22. Definition KTIB := 23.
Definition KRESET := 24. Definition KSET := 25. Definition KTO := 26. Definition KSHOW := 27. Definition KALL := 28.
Definition KCONFIG := 29. Definition KCHECKPOINT := 30. Definition KSERVICE := 31. Definition KCREATE := 32.
Definition KSTORAGE := 33. Definition KSTORAGES := 34. Definition KPARTITION := 35. Definition KPARTITIONS := 36.
Definition KIF := 37. Definition KNOT := 38. Definition KEXISTS := 39. Definition KDROP := 40.
Definition KPIPELINE := 41. Definition KALTER := 42. Definition KRENAME := 43. Definition KMOVE := 44.
Definition KBETWEEN := 45. Definition KAND := 46. Definition KINTO := 47. Definition KREFRESH := 48.
Definition KREBALANCE := 49. Definition KON := 50. Definition KCLOUD := 51. Definition KCLOUDS := 52.
Definition KDOWNLOAD := 53. Definition KUPLOAD := 54. Definition KVERBOSE := 55. Definition KDEBUG := 56.
Definition KWAL := 57. Definition KMEMORY := 58.

(* lex.c:31-111 *)
Definition keywords : list (N * string * nat) :=
  [ (KTRUE, "true", 4); (KFALSE, "false", 5);
    (KUSEC, "us", 2); (KUSEC, "microsecond", 11); (KUSEC, "microseconds", 12);
    (KMSEC, "ms", 2); (KMSEC, "millisecond", 11); (KMSEC, "milliseconds", 12);
    (KSEC, "sec", 3); (KSEC, "second", 6); (KSEC, "seconds", 7);
    (KMIN, "min", 2); (KMIN, "minute", 6); (KMIN, "minutes", 7);
    (KHOUR, "hr", 2); (KHOUR, "hour", 4); (KHOUR, "hours", 5);
    (KDAY, "day", 3); (KDAY, "days", 4); (KWEEK, "week", 4); (KWEEK, "weeks", 5);
    (KMONTH, "month", 5); (KMONTH, "months", 6); (KYEAR, "year", 4); (KYEAR, "years", 5);
    (KKB, "kb", 2); (KKIB, "kib", 3); (KKIB, "k", 1);
    (KMB, "mb", 2); (KMIB, "mib", 3); (KMIB, "m", 1);
    (KGB, "gb", 2); (KGIB, "gib", 3); (KGIB, "g", 1);
    (KTB, "tb", 2); (KTIB, "tib", 3); (KTIB, "t", 1);
    (KSET, "set", 3); (KRESET, "reset", 5); (KTO, "to", 2); (KSHOW, "show", 4); (KALL, "all", 3);
    (KCONFIG, "config", 6); (KCHECKPOINT, "checkpoint", 10); (KSERVICE, "service", 7);
    (KCREATE, "create", 6); (KSTORAGE, "storage", 7); (KSTORAGES, "storages", 8);
    (KPARTITION, "partition", 9); (KPARTITIONS, "partitions", 10);
    (KIF, "if", 2); (KNOT, "not", 3); (KEXISTS, "exists", 6); (KDROP, "drop", 4);
    (KPIPELINE, "pipeline", 8); (KALTER, "alter", 5); (KRENAME, "rename", 6); (KMOVE, "move", 4);
    (KBETWEEN, "between", 7); (KAND, "and", 3); (KINTO, "into", 4); (KREFRESH, "refresh", 7);
    (KREBALANCE, "rebalance", 9); (KON, "on", 2); (KCLOUD, "cloud", 5); (KCLOUDS, "clouds", 6);
    (KDOWNLOAD, "download", 8); (KUPLOAD, "upload", 6); (KVERBOSE, "verbose", 7); (KDEBUG, "debug", 5);
    (KWAL, "wal", 3); (KMEMORY, "memory", 6) ]%string%nat.

(* lex.h:85-96 *)
Inductive tval := TNone | TInt (n : N) | TReal (bits : N) | TStr (s : list byte) (escape : bool).
Record token := mk_tok { t_id : N; t_val : tval }.
(* lex.h:98-105: the top of the backlog is the head of the list *)
Record lex := mk_lex { lx_rest : list byte; lx_kw : bool; lx_back : list token }.

(* lex.c:113-127 *)
Definition lex_start (text : list byte) : lex := mk_lex text true [].
(* lex.c:129-133 *)
Definition lex_keywords (l : lex) (on : bool) : lex := mk_lex (lx_rest l) on (lx_back l).

Definition isalpha (b : byte) : bool := ((65 <=? b) && (b <=? 90)) || ((97 <=? b) && (b <=? 122)).
Definition ispunct (b : byte) : bool :=
  ((33 <=? b) && (b <=? 47)) || ((58 <=? b) && (b <=? 64)) || ((91 <=? b) && (b <=? 96)) || ((123 <=? b) && (b <=? 126)).
Definition tolower (b : byte) : byte := if (65 <=? b) && (b <=? 90) then b + 32 else b.

(* lex.c:217-231 *)
Fixpoint skip_blank (comment : bool) (l : list byte) : list byte :=
  match l with
  | [] => []
  | b :: t =>
    if comment then skip_blank (negb (b =? 10)) t
    else if isspace b then skip_blank false t
    else if b =? 35 then skip_blank true t
    else l
  end.

(* lex.c:249-263: None is the jump to reread_as_float *)
Fixpoint scan_digits (v : N) (l : list byte) : option (N * list byte) :=
  match l with
  | [] => Some (v, [])
  | b :: t =>
    if (b =? 46) || (b =? 101) || (b =? 69) then None
    else if isdigit b then scan_digits (sub64 (w64 (w64 (v * 10) + b)) 48) t
    else Some (v, l)
  end.

(* lex.c:285-293 *)
Definition name_char (b : byte) : bool := (b =? 95) || (b =? 46) || (b =? 36) || isalpha b || isdigit b.
Fixpoint scan_name (l : list byte) : list byte * list byte :=
  match l with
  | b :: t => if name_char b then let (s, r) := scan_name t in (b :: s, r) else ([], l)
  | [] => ([], [])
  end.

(* lex.c:301-311; str.h:102-106 str_compare_case *)
Fixpoint same_case (w name : list byte) (size : nat) {struct size} : bool :=
  match size with
  | O => true
  | S size => match w, name with
              | x :: w, y :: name => (tolower x =? tolower y) && same_case w name size
              | _, _ => false
              end
  end.
Fixpoint find_keyword (ks : list (N * string * nat)) (w : list byte) : N :=
  match ks with
  | [] => KNAME
  | (id, name, size) :: ks =>
    if negb (size =? List.length w)%nat then find_keyword ks w
    else if same_case w (chars name) size then id else find_keyword ks w
  end.

(* lex.c:326-350 *)
Fixpoint scan_quoted (q : byte) (slash escape : bool) (l : list byte) : res (list byte * bool * list byte) :=
  match l with
  | [] => Err
  | b :: t =>
    let more slash escape := do r <- scan_quoted q slash escape t ; Ok (b :: fst (fst r), snd (fst r), snd r) in
    if b =? q then (if slash then more false escape else Ok ([], escape, t))
    else if b =? 10 then Err
    else if b =? 92 then more (negb slash) true
    else more false escape
  end.

(* lex.c:353-358: the assertion that the four places are not all taken is undefined behaviour *)
Definition lex_push (l : lex) (tk : token) : res lex :=
  if (List.length (lx_back l) <? 4)%nat then Ok (mk_lex (lx_rest l) (lx_kw l) (tk :: lx_back l)) else UB.

(* lex.c:141-200 *)
Definition factor (id : N) : option N :=
  if id =? KUSEC then Some 1
  else if id =? KMSEC then Some 1000
  else if id =? KSEC then Some (1000 * 1000)
  else if id =? KMIN then Some (60 * 1000 * 1000)
  else if id =? KHOUR then Some (60 * 60 * 1000 * 1000)
  else if id =? KDAY then Some (24 * 60 * 60 * 1000 * 1000)
  else if id =? KWEEK then Some (7 * 24 * 60 * 60 * 1000 * 1000)
  else if id =? KMONTH then Some (30 * 7 * 24 * 60 * 60 * 1000 * 1000)
  else if id =? KYEAR then Some (12 * 30 * 7 * 24 * 60 * 60 * 1000 * 1000)
  else if id =? KKB then Some 1000
  else if id =? KKIB then Some 1024
  else if id =? KMB then Some (1000 * 1000)
  else if id =? KMIB then Some (1024 * 1024)
  else if id =? KGB then Some (1000 * 1000 * 1000)
  else if id =? KGIB then Some (1024 * 1024 * 1024)
  else if id =? KTB then Some (1000 * 1000 * 1000 * 1000)
  else if id =? KTIB then Some (1024 * 1024 * 1024 * 1024)
  else None.

Section LEX.
Variable strtod : list byte -> option (N * nat).

(* lex.c:206-351, with lex_integer_mod 135-204 inside; [fuel] bounds the recursion for the token
   after an integer *)
Fixpoint lex_next_fuel (fuel : nat) (l : lex) : res (token * lex) :=
  match fuel with
  | O => UB
  | S fuel =>
    match lx_back l with
    | tk :: back => Ok (tk, mk_lex (lx_rest l) (lx_kw l) back)
    | [] =>
      match skip_blank false (lx_rest l) with
      | [] => Ok (mk_tok KEOF TNone, mk_lex [] (lx_kw l) [])
      | (b :: t) as s =>
        if negb (b =? 34) && negb (b =? 39) && negb (b =? 95) && ispunct b
        then Ok (mk_tok b (TInt 0), mk_lex t (lx_kw l) [])
        else if isdigit b then
          match scan_digits 0 s with
          | Some (v, r) =>
            do n <- lex_next_fuel fuel (mk_lex r (lx_kw l) []) ;
            match factor (t_id (fst n)) with
            | Some k => Ok (mk_tok KINT (TInt (w64 (v * k))), snd n)
            | None => do l <- lex_push (snd n) (fst n) ; Ok (mk_tok KINT (TInt v), l)
            end
          | None =>
            match strtod s with
            | None => Err
            | Some (v, n) => Ok (mk_tok KREAL (TReal v), mk_lex (skipn n s) (lx_kw l) [])
            end
          end
        else if isalpha b || (b =? 95) then
          let (w, r) := scan_name s in
          Ok (mk_tok (if lx_kw l then find_keyword keywords w else KNAME) (TStr w false), mk_lex r (lx_kw l) [])
        else if (b =? 34) || (b =? 39) then
          do r <- scan_quoted b false false t ;
          Ok (mk_tok KSTRING (TStr (fst (fst r)) (snd (fst r))), mk_lex (snd r) (lx_kw l) [])
        else Err
      end
    end
  end.
Definition lex_next (l : lex) : res (token * lex) := lex_next_fuel (S (List.length (lx_rest l))) l.

(* lex.c:360-370: the token and whether it is the expected one; otherwise it is put back *)
Definition lex_if (l : lex) (id : N) : res (option token * lex) :=
  do n <- lex_next l ;
  if t_id (fst n) =? id then Ok (Some (fst n), snd n)
  else do l <- lex_push (snd n) (fst n) ; Ok (None, l).
(* lex.c:372-380 *)
Definition lex_if_name (l : lex) : res (option token * lex) :=
  do r <- lex_if (lex_keywords l false) KNAME ;
  Ok (fst r, lex_keywords (snd r) true).

End LEX.
