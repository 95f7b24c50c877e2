(* What the units of sizes and durations say. Durations are in microseconds, sizes in bytes; a
   month is 30 days and a year is twelve months. *)
From Coq Require Import NArith List String Bool.
Import ListNotations.
From Verif Require Import Model.Base.
Local Open Scope N_scope.

Definition usec := 1. Definition msec := 1000 * usec. Definition second := 1000 * msec.
Definition minute := 60 * second. Definition hour := 60 * minute. Definition day := 24 * hour.
Definition week := 7 * day. Definition month := 30 * day. Definition year := 12 * month.

Definition units : list (string * N) :=
  [ ("us", usec); ("microsecond", usec); ("microseconds", usec);
    ("ms", msec); ("millisecond", msec); ("milliseconds", msec);
    ("sec", second); ("second", second); ("seconds", second);
    ("min", minute); ("minute", minute); ("minutes", minute);
    ("hr", hour); ("hour", hour); ("hours", hour);
    ("day", day); ("days", day); ("week", week); ("weeks", week);
    ("month", month); ("months", month); ("year", year); ("years", year);
    ("kb", 10 ^ 3); ("mb", 10 ^ 6); ("gb", 10 ^ 9); ("tb", 10 ^ 12);
    ("k", 2 ^ 10); ("m", 2 ^ 20); ("g", 2 ^ 30); ("t", 2 ^ 40);
    ("kib", 2 ^ 10); ("mib", 2 ^ 20); ("gib", 2 ^ 30); ("tib", 2 ^ 40) ]%string.

(* the units whose word means something else in the code *)
Definition odd_unit (u : string) : Prop := In u ["min"; "month"; "months"; "year"; "years"]%string.

(* the number written by decimal digits *)
Definition digit (b : byte) : Prop := 48 <= b <= 57.
Definition number (ds : list byte) : N := fold_left (fun v b => v * 10 + (b - 48)) ds 0.

(* the same word up to the case of its letters *)
Definition lower (b : byte) : byte := if (65 <=? b) && (b <=? 90) then b + 32 else b.

(* what may follow a word: nothing, or a character that is not a letter, digit, '_', '.', '$' *)
Definition word_char (b : byte) : Prop :=
  65 <= b <= 90 \/ 97 <= b <= 122 \/ 48 <= b <= 57 \/ b = 95 \/ b = 46 \/ b = 36.
Definition word_ends (r : list byte) : Prop := match r with [] => True | b :: _ => ~ word_char b end.
Definition blank (b : byte) : Prop := b = 32 \/ 9 <= b <= 13.
