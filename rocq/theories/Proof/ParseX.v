(* Texts as they are written, locks, and cases of the command language. *)
From Coq Require Import NArith ZArith Arith List Bool Lia String.
Import ListNotations.
From Verif Require Import Model.Base Model.Json Model.Lex Model.Uuid Model.Source Model.Catalog Model.Show Model.Parse
  Spec.Units Spec.Command Proof.ParseT Proof.ParseR Proof.ParseG Proof.ParseL.
Local Arguments N.mul : simpl never.
Local Arguments N.modulo : simpl never.
Local Open Scope N_scope.

(* ---- crowded ---- *)
Lemma run_four : forall ts, (4 <= run ts)%nat -> exists a b c d vs, ts = a :: b :: c :: d :: vs /\ Forall (fun t => t_id t = KINT) [a; b; c; d].
Proof.
  intros [|a [|b [|c [|d vs]]]] H; cbn [run] in H;
    repeat match type of H with context [t_id ?t =? KINT] => destruct (N.eqb_spec (t_id t) KINT); cbn [run] in H end; try lia.
  exists a, b, c, d, vs. split; [reflexivity|]. repeat constructor; assumption.
Qed.
Lemma not_crowded ts : ~ crowded ts -> short ts.
Proof.
  intros H n. destruct (le_lt_dec (run (skipn n ts)) 3) as [L|L]; [exact L|]. exfalso. apply H.
  destruct (run_four _ L) as (a & b & c & d & vs & E & F). exists (firstn n ts), a, b, c, d, vs. split; [|exact F].
  rewrite <- E. symmetry. apply firstn_skipn.
Qed.
Lemma safe_text strtod e s ts : tokens strtod s ts -> ~ crowded (with_units ts) -> ~ In dollar (with_units ts) -> parse strtod e s <> UB.
Proof. intros T C D. apply (safe strtod e s ts T (not_crowded _ C) D). Qed.
Lemma refused_text strtod e s ts : tokens strtod s ts -> ~ crowded (with_units ts) -> ~ In dollar (with_units ts) ->
  (forall c, ~ sentence e (with_units ts) c) -> parse strtod e s = Err.
Proof. intros T C D. apply (refused strtod e s ts T (not_crowded _ C) D). Qed.

(* ---- written texts ---- *)
Lemma gap_skips : forall g, gap g -> forall s r, skips s r -> skips (g ++ s) r.
Proof.
  induction 1 as [|b g B _ IH|c t F _ IH]; intros s r H; cbn [app]; [exact H|apply sk_blank; auto|].
  rewrite <- app_assoc. cbn [app]. apply sk_comment; auto.
Qed.
Lemma lower_letter b : 97 <= lower b <= 122 -> letter b.
Proof. unfold lower, letter. destruct (N.leb_spec 65 b), (N.leb_spec b 90); cbn [andb]; lia. Qed.
Definition letters (u : list byte) : bool := forallb (fun b => (97 <=? b) && (b <=? 122)) u.
Lemma words_letters : forallb (fun u => match chars (fst u) with [] => false | x => letters x end) words = true.
Proof. vm_compute. reflexivity. Qed.
Lemma letter_word b : letter b -> word_char b.
Proof. unfold letter, word_char. lia. Qed.
Lemma keyword_letters w u id : In (u, id) words -> map lower w = chars u -> exists b v, w = b :: v /\ letter b /\ Forall word_char v.
Proof.
  intros I E. pose proof (proj1 (forallb_forall _ _) words_letters _ I) as L. cbn [fst] in L. rewrite <- E in L.
  destruct w as [|b v]; [discriminate|]. cbn [map] in L. unfold letters in L. cbn [forallb] in L. apply andb_prop in L as [A B].
  apply andb_prop in A as [A1 A2]. apply N.leb_le in A1, A2. exists b, v. split; [reflexivity|]. split; [apply lower_letter; lia|].
  clear E. induction v as [|c v IH]; [constructor|]. cbn [map forallb] in B. apply andb_prop in B as [A B]. apply andb_prop in A as [C1 C2].
  apply N.leb_le in C1, C2. constructor; [apply letter_word, lower_letter; lia|apply IH, B].
Qed.
Definition apart (r : list byte) : Prop := match r with [] => True | b :: _ => blank b \/ b = 35 end.
Lemma apart_word r : apart r -> word_ends r.
Proof. destruct r as [|b r]; cbn; [trivial|]. unfold blank, word_char. lia. Qed.
Lemma apart_int r : apart r -> match r with [] => True | b :: _ => ~ digit b /\ b <> 46 /\ b <> 101 /\ b <> 69 end.
Proof. destruct r as [|b r]; cbn; [trivial|]. unfold blank, digit. lia. Qed.
Lemma spelled_token strtod p t r : spelled p t -> apart r -> token_at strtod (p ++ r) t r.
Proof.
  intros H A. destruct H as [w u id I E|b w B F N|ds D F|q s Q S|b S N1 N2 N3].
  - destruct (keyword_letters w u id I E) as (b & v & -> & L & F). cbn [app]. apply ta_word; [left; exact L|exact F|apply apart_word, A|].
    left. exists u. split; assumption.
  - cbn [app]. apply ta_word; [exact B|exact F|apply apart_word, A|right; split; [reflexivity|exact N]].
  - apply ta_int; [exact D|exact F|apply apart_int, A].
  - cbn [app]. rewrite <- app_assoc. cbn [app]. apply ta_string; [exact Q|exact S|reflexivity].
  - apply ta_symbol; assumption.
Qed.
Lemma spelled_start p t r : spelled p t -> match p ++ r with [] => True | b :: _ => ~ blank b /\ b <> 35 end.
Proof.
  intros H. destruct H as [w u id I E|b w B F N|ds D F|q s Q S|b S N1 N2 N3]; cbn [app].
  - destruct (keyword_letters w u id I E) as (b & v & -> & L & _). cbn [app]. unfold letter, blank in *. lia.
  - unfold letter, blank in *. lia.
  - destruct ds as [|d ds]; [congruence|]. cbn [app]. inversion F; subst. unfold digit, blank in *. lia.
  - unfold blank. lia.
  - split; [apply symbol_not_blank, S|exact N3].
Qed.
Lemma written_tokens strtod s ts : written s ts -> tokens strtod s ts.
Proof.
  induction 1 as [g G|g p t r ts G P A _ IH].
  - apply tk_end. rewrite <- (app_nil_r g). apply (gap_skips g G). apply sk_none. exact I.
  - apply tk_next with (s' := p ++ r) (r := r); [|apply spelled_token; assumption|exact IH].
    apply (gap_skips g G). apply sk_none. apply (spelled_start p t r P).
Qed.
Lemma written_means strtod e s ts c : written s ts -> (parse strtod e s = Ok c <-> sentence e (with_units ts) c).
Proof.
  intro W. apply (written_tokens strtod) in W. rewrite accepts. split; [|eauto].
  intros (us & T & S). assert (us = ts) as -> by (apply tokens_rawl in T, W; apply (rawl_fun strtod s); assumption). exact S.
Qed.

(* ---- locks ---- *)
Ltac no_kw := match goal with H : kw ?a ?t, K : kw ?b ?t |- _ => unfold kw in H, K; rewrite H in K; discriminate K end.
Lemma sentence_lock e ts c : sentence e ts (Some c) ->
  (lock_of c = LockShared <-> locked_shared ts) /\ (lock_of c = LockExclusive <-> locked_exclusive ts).
Proof.
  intro S. remember (Some c) as o eqn:Eo. destruct S; try discriminate Eo; injection Eo as <-; cbn [lock_of];
    (split; split; intro H0'; try discriminate H0'; try reflexivity;
     try (destruct H0' as (t & r & E & K); cbn [app] in E; injection E as <- _; no_kw);
     try (destruct H0' as (t & u & r & E & K); cbn [app] in E; injection E; clear E; intros; subst;
          destruct K as [K|[[K|[K|K]] [K'|[K'|K']]]]; no_kw);
     try (eexists; eexists; split; [reflexivity|assumption]);
     try (eexists; eexists; eexists; split; [reflexivity|unfold kw in *; tauto])).
Qed.
Lemma locks strtod e s ts c : tokens strtod s ts -> parse strtod e s = Ok (Some c) ->
  (lock_of c = LockShared <-> locked_shared (with_units ts)) /\ (lock_of c = LockExclusive <-> locked_exclusive (with_units ts)).
Proof.
  intros T P. apply accepts in P as (us & T' & S). assert (us = ts) as -> by (apply tokens_rawl in T, T'; apply (rawl_fun strtod s); assumption).
  apply (sentence_lock e), S.
Qed.
Lemma nothing_done run strtod e s : parse strtod e s = Err \/ parse strtod e s = Ok None -> fst (main_execute run strtod e s) = [].
Proof. unfold main_execute. intros [-> | ->]; reflexivity. Qed.
Lemma done run strtod e s c : parse strtod e s = Ok (Some c) -> run c <> UB ->
  main_execute run strtod e s =
    (match lock_of c with LockNone => [Runs c] | LockShared => [Locks true; Runs c; Unlocks] | LockExclusive => [Locks false; Runs c; Unlocks] end,
     run c).
Proof. unfold main_execute. intros -> H. destruct (run c), (lock_of c); try reflexivity; congruence. Qed.
Lemma blank_text strtod e s : parse strtod e s = Ok None <-> skips s [].
Proof.
  rewrite accepts. split.
  - intros (ts & T & S). remember None as o eqn:Eo. remember (with_units ts) as us eqn:E. destruct S; try discriminate Eo.
    destruct T as [s K|s s' t r ts K A T]; [exact K|].
    exfalso. clear -E A. cbn [with_units] in E. destruct (t_id t =? KINT); [|discriminate E].
    destruct (t_val t); try discriminate E. destruct ts as [|u ts]; [discriminate E|]. destruct (factor (t_id u)); discriminate E.
  - intro K. exists []. split; [apply tk_end, K|constructor].
Qed.

(* ---- cases ---- *)
Definition no_reals : list byte -> option (N * nat) := fun _ => None.
Definition an_env : env := mk_env (mk_uuid 1 2) (chars "0123456789abcdef0123456789abcdef") (chars "zstd") 3 3000000.
Definition said (s : string) : res (option cmd) := parse no_reals an_env (chars s).

Fixpoint raws (f : nat) (s : list byte) : option (list token) :=
  match f with
  | O => None
  | S f =>
    match raw1 no_reals true s with
    | Ok None => Some []
    | Ok (Some (t, r)) => match raws f r with Some ts => Some (t :: ts) | None => None end
    | _ => None
    end
  end.
Lemma raws_tokens : forall f s ts, raws f s = Some ts -> tokens no_reals s ts.
Proof.
  intros f s ts H. apply tokens_rawl. revert s ts H. induction f as [|f IH]; intros s ts H; [discriminate|]. cbn [raws] in H.
  destruct (raw1 no_reals true s) as [[[t r]|]| |] eqn:E; try discriminate.
  - destruct (raws f r) as [us|] eqn:F; [|discriminate]. injection H as <-. apply rl_next with r; [exact E|apply IH, F].
  - injection H as <-. apply rl_end, E.
Qed.
Fixpoint crowdedb (n : nat) (ts : list token) : bool :=
  match ts with
  | [] => false
  | t :: r => if t_id t =? KINT then (n =? 3)%nat || crowdedb (S n) r else crowdedb 0 r
  end.
Lemma crowdedb_four a b c d vs n : Forall (fun t => t_id t = KINT) [a; b; c; d] -> (n <= 3)%nat -> crowdedb n (a :: b :: c :: d :: vs) = true.
Proof.
  intros F L. inversion F as [|? ? A F1]. inversion F1 as [|? ? B F2]. inversion F2 as [|? ? C F3]. inversion F3 as [|? ? D _]. subst.
  cbn [crowdedb]. rewrite A, B, C, D. change (KINT =? KINT) with true. cbv iota.
  destruct n as [|[|[|[|n]]]]; try reflexivity. lia.
Qed.
Lemma crowdedb_ok : forall us n vs, (n <= 3)%nat -> (forall m, (m <= 3)%nat -> crowdedb m vs = true) -> crowdedb n (us ++ vs) = true.
Proof.
  induction us as [|t us IH]; intros n vs L H; cbn [app]; [apply H, L|]. cbn [crowdedb]. destruct (t_id t =? KINT).
  - destruct (Nat.eqb_spec n 3) as [E|E]; [reflexivity|]. cbn [orb]. apply IH; [lia|exact H].
  - apply IH; [lia|exact H].
Qed.
Lemma not_crowdedb ts : crowdedb 0 ts = false -> ~ crowded ts.
Proof.
  intros H (us & a & b & c & d & vs & -> & F). rewrite (crowdedb_ok us 0 _ (le_S _ _ (le_S _ _ (le_S _ _ (le_n 0)))) (fun m L => crowdedb_four a b c d vs m F L)) in H.
  discriminate.
Qed.
Definition long_text : string := "ALTER STORAGE IF EXISTS s SET (region_size 64 kib, crc true, cloud 'c') # comment".
Definition long_tokens : list token := match raws 100 (chars long_text) with Some ts => ts | None => [] end.
Lemma long_ok : tokens no_reals (chars long_text) long_tokens /\ ~ crowded (with_units long_tokens) /\ ~ In dollar (with_units long_tokens) /\
  List.length (with_units long_tokens) = 16%nat /\
  said long_text = Ok (Some (CmdCatalog (StorageAlter (chars "s")
    (mk_salter None (Some (chars "c")) None None (Some true) None (Some 65536%Z) None None None None) true))).
Proof.
  split; [apply (raws_tokens 100); vm_compute; reflexivity|]. split; [apply not_crowdedb; vm_compute; reflexivity|].
  split; [|split; vm_compute; reflexivity].
  intro I. assert (E : existsb (fun t => t_id t =? 36) (with_units long_tokens) = true) by (apply existsb_exists; exists dollar; split; [exact I|reflexivity]).
  vm_compute in E. discriminate E.
Qed.
Lemma bad_ok : let s := chars "SET (interval) TO 5"%string in
  exists ts, tokens no_reals s ts /\ ~ crowded (with_units ts) /\ ~ In dollar (with_units ts) /\ (forall c, ~ sentence an_env (with_units ts) c).
Proof.
  cbv zeta. assert (T : exists ts, raws 100 (chars "SET (interval) TO 5") = Some ts) by (eexists; vm_compute; reflexivity).
  destruct T as [ts T]. exists ts. pose proof (raws_tokens _ _ _ T) as K. split; [exact K|].
  split; [apply not_crowdedb; vm_compute in T; injection T as <-; reflexivity|]. split.
  - vm_compute in T. injection T as <-. cbn. intuition discriminate.
  - intros c S. assert (E : said "SET (interval) TO 5" = Ok c) by (apply accepts; eauto). vm_compute in E. discriminate E.
Qed.

(* a text with keywords in any case, blanks and a comment *)
Definition loose : string := String.append "dRoP	Partition  7# not the range
 ON storage" "".
Lemma loose_written : exists ts, written (chars loose) ts /\
  sentence an_env (with_units ts) (Some (CmdDrop 7 false 1)) /\ List.length ts = 5%nat.
Proof.
  eexists [mk_tok KDROP (TStr (chars "dRoP") false); mk_tok KPARTITION (TStr (chars "Partition") false); mk_tok KINT (TInt 7);
          mk_tok KON (TStr (chars "ON") false); mk_tok KSTORAGE (TStr (chars "storage") false)].
  assert (B : blank 32) by (left; reflexivity).
  split; [|split; [|reflexivity]].
  - apply (wr_token [] (chars "dRoP") _ (skipn 4 (chars loose))); [apply gap_end| |change (blank 9 \/ 9 = 35); unfold blank; lia|].
    { apply sp_keyword with "drop"%string; [vm_compute; tauto|reflexivity]. }
    apply (wr_token [9] (chars "Partition") _ (skipn 14 (chars loose))); [apply gap_blank; [right; lia|constructor]| |cbn; left; exact B|].
    { apply sp_keyword with "partition"%string; [vm_compute; tauto|reflexivity]. }
    apply (wr_token [32; 32] [55] (mk_tok KINT (TInt 7)) (skipn 17 (chars loose))).
    { apply gap_blank; [exact B|]. apply gap_blank; [exact B|constructor]. }
    { apply (sp_int [55]); [discriminate|]. constructor; [unfold digit; lia|constructor]. }
    { cbn. right. reflexivity. }
    apply (wr_token (chars "# not the range" ++ [10; 32]) (chars "ON") _ (skipn 36 (chars loose))).
    { apply (gap_comment (chars " not the range") [32]); [|apply gap_blank; [exact B|constructor]].
      apply Forall_forall. intros x I E. subst x. vm_compute in I. intuition discriminate. }
    { apply sp_keyword with "on"%string; [vm_compute; tauto|reflexivity]. }
    { cbn. left. exact B. }
    apply (wr_token [32] (chars "storage") _ []).
    { apply gap_blank; [exact B|constructor]. }
    { apply sp_keyword with "storage"%string; [vm_compute; tauto|reflexivity]. }
    { exact I. }
    apply wr_end. constructor.
  - cbn [with_units]. apply (se_drop an_env _ _ [] false (mk_tok KINT (TInt 7)) 7 [mk_tok KON (TStr (chars "ON") false); mk_tok KSTORAGE (TStr (chars "storage") false)] 1); try reflexivity.
    + constructor.
    + split; reflexivity.
    + constructor; reflexivity.
Qed.

(* four integers in a row overrun the four tokens kept by the lexer; a $ where an option is
   expected is taken for the word PARTITIONS and its text is read *)
Lemma overrun : exists s ts, tokens no_reals s ts /\ ~ In dollar (with_units ts) /\ s = chars "DROP PARTITION 1 2 3 4" /\ parse no_reals an_env s = UB.
Proof.
  assert (T : exists ts, raws 100 (chars "DROP PARTITION 1 2 3 4") = Some ts) by (eexists; vm_compute; reflexivity).
  destruct T as [ts T]. exists (chars "DROP PARTITION 1 2 3 4"), ts. split; [apply (raws_tokens 100), T|]. split; [|split; [reflexivity|vm_compute; reflexivity]].
  vm_compute in T. injection T as <-. cbn. intuition discriminate.
Qed.
Lemma dollar_read : exists s ts, tokens no_reals s ts /\ ~ crowded (with_units ts) /\ s = chars "ALTER PIPELINE SET a ($ 1)" /\ parse no_reals an_env s = UB.
Proof.
  assert (T : exists ts, raws 100 (chars "ALTER PIPELINE SET a ($ 1)") = Some ts) by (eexists; vm_compute; reflexivity).
  destruct T as [ts T]. exists (chars "ALTER PIPELINE SET a ($ 1)"), ts. split; [apply (raws_tokens 100), T|]. split; [|split; [reflexivity|vm_compute; reflexivity]].
  apply not_crowdedb. vm_compute in T. injection T as <-. vm_compute. reflexivity.
Qed.
(* a text with no word in it drops partitions *)
Lemma wordless : exists s, Forall (fun b => ~ letter b) s /\ parse no_reals an_env s = Ok (Some (CmdDropRange 1 9 9)).
Proof.
  exists (chars "( $ - 1 . 9"). split; [|vm_compute; reflexivity].
  apply Forall_forall. intros b I. vm_compute in I. unfold letter.
  repeat (destruct I as [<-|I]; [lia|]). destruct I.
Qed.
(* other surprises *)
Lemma surprises :
  said "( $ - 1 . 9" = said "DROP PARTITIONS BETWEEN 1 AND 9" /\ said "( $ - 1 . 9" = Ok (Some (CmdDropRange 1 9 9)) /\
  said "ALTER PIPELINE SET a ()" = Err /\
  said "ALTER PIPELINE SET a () b" = said "ALTER PIPELINE SET a, b" /\
  said "ALTER PIPELINE SET a MOVE b" = said "ALTER PIPELINE SET a, b" /\
  said "ALTER PIPELINE SET a, b" <> Err /\
  said "SHOW CONFIG DEBUG" = Ok (Some (CmdShow [Op (ShowName (chars "DEBUG"))])) /\
  said "SET interval TO" = Ok (Some (CmdSet (chars "interval") (mk_tok KEOF TNone))) /\
  said "CREATE STORAGE all" = Err /\
  said "CREATE STORAGE s (CLOUD 'a')" = Err /\ said "CREATE STORAGE s (cloud 'a')" <> Err.
Proof. repeat split; try (vm_compute; reflexivity); vm_compute; discriminate. Qed.
