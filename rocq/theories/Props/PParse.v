(* Commands: C74, C75. *)
From Coq Require Import NArith ZArith Arith String List Bool.
Import ListNotations.
From Verif Require Import Model.Base Model.Lex Model.Source Model.Catalog Model.Show Model.Parse Spec.Units Spec.Command.
From Verif Require Import Proof.ParseL Proof.ParseX.

(* A text is a command exactly if its tokens are a sentence that says so. *)
Theorem C74_accepts : forall strtod e s c,
  parse strtod e s = Ok c <-> exists ts, tokens strtod s ts /\ sentence e (with_units ts) c.
Proof. exact accepts. Qed.
Print Assumptions C74_accepts.
Example C74_accepts_example : tokens no_reals (chars long_text) long_tokens /\ ~ crowded (with_units long_tokens) /\
  ~ In dollar (with_units long_tokens) /\ List.length (with_units long_tokens) = 16 /\
  said long_text = Ok (Some (CmdCatalog (StorageAlter (chars "s")
    (mk_salter None (Some (chars "c")) None None (Some true) None (Some 65536%Z) None None None None) true))).
Proof. exact long_ok. Qed.

(* A text has one list of tokens and one meaning. *)
Theorem C74_one_meaning : forall strtod e s c d ts us, tokens strtod s ts -> sentence e (with_units ts) c ->
  tokens strtod s us -> sentence e (with_units us) d -> ts = us /\ c = d.
Proof. exact one_meaning. Qed.
Print Assumptions C74_one_meaning.

(* No undefined behaviour, and an error for what is not a sentence: with fewer than four integers
   in a row and no $. *)
Theorem C74_safe : forall strtod e s ts, tokens strtod s ts -> ~ crowded (with_units ts) -> ~ In dollar (with_units ts) ->
  parse strtod e s <> UB.
Proof. exact safe_text. Qed.
Print Assumptions C74_safe.
Theorem C74_refused : forall strtod e s ts, tokens strtod s ts -> ~ crowded (with_units ts) -> ~ In dollar (with_units ts) ->
  (forall c, ~ sentence e (with_units ts) c) -> parse strtod e s = Err.
Proof. exact refused_text. Qed.
Print Assumptions C74_refused.
Example C74_refused_example : let s := chars "SET (interval) TO 5" in
  exists ts, tokens no_reals s ts /\ ~ crowded (with_units ts) /\ ~ In dollar (with_units ts) /\
    (forall c, ~ sentence an_env (with_units ts) c).
Proof. exact bad_ok. Qed.

(* Four integers overrun the tokens kept; a $ for an option is read as a word. *)
Theorem C74_overrun_refuted : exists s ts, tokens no_reals s ts /\ ~ In dollar (with_units ts) /\
  s = chars "DROP PARTITION 1 2 3 4" /\ parse no_reals an_env s = UB.
Proof. exact overrun. Qed.
Print Assumptions C74_overrun_refuted.
Theorem C74_dollar_refuted : exists s ts, tokens no_reals s ts /\ ~ crowded (with_units ts) /\
  s = chars "ALTER PIPELINE SET a ($ 1)" /\ parse no_reals an_env s = UB.
Proof. exact dollar_read. Qed.
Print Assumptions C74_dollar_refuted.
(* Characters of punctuation are taken for keywords. *)
Theorem C74_symbols_refuted : exists s, Forall (fun b => ~ letter b) s /\
  parse no_reals an_env s = Ok (Some (CmdDropRange 1 9 9)).
Proof. exact wordless. Qed.
Print Assumptions C74_symbols_refuted.
Example C74_cases_example :
  said "( $ - 1 . 9" = said "DROP PARTITIONS BETWEEN 1 AND 9" /\ said "( $ - 1 . 9" = Ok (Some (CmdDropRange 1 9 9)) /\
  said "ALTER PIPELINE SET a ()" = Err /\
  said "ALTER PIPELINE SET a () b" = said "ALTER PIPELINE SET a, b" /\
  said "ALTER PIPELINE SET a MOVE b" = said "ALTER PIPELINE SET a, b" /\
  said "ALTER PIPELINE SET a, b" <> Err /\
  said "SHOW CONFIG DEBUG" = Ok (Some (CmdShow [Op (ShowName (chars "DEBUG"))])) /\
  said "SET interval TO" = Ok (Some (CmdSet (chars "interval") (mk_tok KEOF TNone))) /\
  said "CREATE STORAGE all" = Err /\
  said "CREATE STORAGE s (CLOUD 'a')" = Err /\ said "CREATE STORAGE s (cloud 'a')" <> Err.
Proof. exact surprises. Qed.

(* Keywords in any case, blanks and comments: a text written of tokens is the command they say. *)
Theorem C75_written : forall strtod e s ts c, written s ts -> (parse strtod e s = Ok c <-> sentence e (with_units ts) c).
Proof. exact written_means. Qed.
Print Assumptions C75_written.
Example C75_written_example : exists ts, written (chars loose) ts /\
  sentence an_env (with_units ts) (Some (CmdDrop 7 false 1)) /\ List.length ts = 5.
Proof. exact loose_written. Qed.

(* Nothing is done by a text with nothing but blanks and comments, and by it alone. *)
Theorem C75_blank : forall strtod e s, parse strtod e s = Ok None <-> skips s [].
Proof. exact blank_text. Qed.
Print Assumptions C75_blank.
Theorem C75_nothing : forall run strtod e s, parse strtod e s = Err \/ parse strtod e s = Ok None ->
  fst (main_execute run strtod e s) = [].
Proof. exact nothing_done. Qed.
Print Assumptions C75_nothing.
Example C75_nothing_example : said " # comment" = Ok None /\ said "DROP" = Err.
Proof. split; vm_compute; reflexivity. Qed.

(* The lock is told by the first words of the text; it is released whether or not the command fails. *)
Theorem C75_locks : forall strtod e s ts c, tokens strtod s ts -> parse strtod e s = Ok (Some c) ->
  (lock_of c = LockShared <-> locked_shared (with_units ts)) /\ (lock_of c = LockExclusive <-> locked_exclusive (with_units ts)).
Proof. exact locks. Qed.
Print Assumptions C75_locks.
Theorem C75_done : forall run strtod e s c, parse strtod e s = Ok (Some c) -> run c <> UB ->
  main_execute run strtod e s =
    (match lock_of c with
     | LockNone => [Runs c]
     | LockShared => [Locks true; Runs c; Unlocks]
     | LockExclusive => [Locks false; Runs c; Unlocks]
     end, run c).
Proof. exact done. Qed.
Print Assumptions C75_done.
Example C75_locks_example : exists c d, said "ALTER CLOUD c SET (debug true)" = Ok (Some c) /\ lock_of c = LockExclusive /\
  said "DROP PARTITION 5" = Ok (Some d) /\ lock_of d = LockNone.
Proof. do 2 eexists. repeat split; vm_compute; reflexivity. Qed.
