(* Which texts are which command. *)
From Coq Require Import NArith ZArith Arith String List Bool Lia.
Import ListNotations.
From Verif Require Import Model.Base Model.Data Model.Json Model.Lex Model.Uuid Model.Source Model.Catalog Model.Show Model.Parse
  Spec.Units Spec.Command Proof.ParseT Proof.ParseR Proof.ParseS Proof.ParseU Proof.ParseG Proof.ParseH Proof.ParseK.
Local Open Scope res_scope.
Local Open Scope N_scope.

(* ---- a sentence has no more than three integers in a row ---- *)
Fixpoint calm (k : nat) (ts : TL) : Prop :=
  match ts with [] => True | t :: r => if t_id t =? KINT then (k < 3)%nat /\ calm (S k) r else calm 0 r end.
Lemma calm_run : forall ts k, calm k ts -> (k <= 3 -> run ts + k <= 3)%nat.
Proof.
  induction ts as [|t ts IH]; intros k H L; cbn [run calm] in *; [lia|]. destruct (t_id t =? KINT); [|lia].
  destruct H as [A B]. specialize (IH _ B). lia.
Qed.
Lemma calm_mono : forall ts k j, calm k ts -> (j <= k)%nat -> calm j ts.
Proof.
  induction ts as [|t ts IH]; intros k j H L; cbn [calm] in *; [exact I|]. destruct (t_id t =? KINT); [|exact H].
  destruct H as [A B]. split; [lia|]. apply (IH _ _ B). lia.
Qed.
Lemma calm_skip : forall n ts, calm 0 ts -> calm 0 (skipn n ts).
Proof.
  induction n as [|n IH]; intros ts H; [exact H|]. destruct ts as [|t ts]; [exact I|]. cbn [skipn]. apply IH. cbn [calm] in H.
  destruct (t_id t =? KINT); [apply (calm_mono _ _ 0 (proj2 H)); lia|exact H].
Qed.
Lemma calm_short ts : calm 0 ts -> short ts.
Proof. intros H n. pose proof (calm_run _ _ (calm_skip n ts H)). lia. Qed.

Definition plain (t : token) : Prop := t_id t <> KINT.
Lemma plain_eq t : plain t -> (t_id t =? KINT) = false.
Proof. apply N.eqb_neq. Qed.
Lemma kw_plain id t : kw id t -> id <> KINT -> plain t.
Proof. unfold kw, plain. congruence. Qed.
Ltac pl := eapply kw_plain; [eassumption || (eapply kw_name; eassumption) || (eapply kw_text; eassumption)|discriminate].
Ltac cm :=
  repeat (cbn [app calm];
    first [ exact I
          | match goal with |- context [t_id ?t =? KINT] => rewrite (plain_eq t) by pl end
          | match goal with |- context [t_id ?t =? KINT] => destruct (t_id t =? KINT) end
          | split
          | lia
          | assumption ]).
Lemma listed_calm {A} (item : TL -> A -> Prop) us l : (forall vs o, item vs o -> exists a b, vs = [a; b] /\ plain a) -> listed item us l ->
  forall c r, plain c -> calm 0 r -> calm 0 (us ++ c :: r).
Proof.
  intro H. induction 1 as [ts o I0|ts o c rs l I0 C _ IH]; intros d r Pd Hr; destruct (H _ _ I0) as (a & b & -> & Pa); cbn [app calm].
  - rewrite (plain_eq a Pa), (plain_eq d Pd). destruct (t_id b =? KINT); [split; [lia|exact Hr]|exact Hr].
  - rewrite (plain_eq a Pa), (plain_eq c) by pl. specialize (IH d r Pd Hr). destruct (t_id b =? KINT); [split; [lia|exact IH]|exact IH].
Qed.
Lemma storage_two vs o : storage_item vs o -> exists a b, vs = [a; b] /\ plain a.
Proof. intros [a b o' K _ _]. exists a, b. split; [reflexivity|]. destruct K as [K|K]; pl. Qed.
Lemma cloud_two vs o : cloud_item vs o -> exists a b, vs = [a; b] /\ plain a.
Proof. intros [a b n o' K _ _ _]. exists a, b. split; [reflexivity|]. destruct K as [K|[K|K]]; pl. Qed.
Lemma tier_two vs o : tier_item vs o -> exists a b, vs = [a; b] /\ plain a.
Proof. intros [a b n o' K _ _ _]. exists a, b. split; [reflexivity|]. destruct K as [K|K]; pl. Qed.
Lemma options_calm {A} (item : TL -> A -> Prop) us l : (forall vs o, item vs o -> exists a b, vs = [a; b] /\ plain a) -> options item us l -> calm 0 us.
Proof.
  intros H [|a b A0 B|a ts b m A0 Hl B]; [exact I|cm|]. cbn [calm]. rewrite (plain_eq a) by pl.
  apply (listed_calm item ts m H Hl b []); [pl|exact I].
Qed.
Lemma tiers_calm ts l : tiers ts l -> calm 0 ts.
Proof.
  induction 1 as [n nm H|n nm c r l H C _ IH|n nm a b r l H A B _ IH|n nm a os b l H A Hl B|n nm a os b l c r ts H A Hl B C _ IH].
  - cm.
  - cm.
  - cm.
  - cbn [calm]. rewrite (plain_eq n), (plain_eq a) by pl. apply (listed_calm tier_item os l tier_two Hl); [pl|exact I].
  - cbn [calm]. rewrite (plain_eq n), (plain_eq a) by pl. apply (listed_calm tier_item os l tier_two Hl); [pl|]. cm.
Qed.
Lemma what_two us g : shows_what us g -> exists a, us = [a] \/ exists b, us = [a; b].
Proof. intros []; eauto. Qed.
Lemma item_calm us o c r : shows_item us o -> plain c -> calm 0 r -> calm 0 (us ++ c :: r).
Proof.
  intros H Pc Hr. destruct H as [ts g H|ts g t H K|t K].
  - destruct (what_two _ _ H) as (a & [->|[b ->]]); cbn [app calm]; rewrite (plain_eq c Pc); cm.
  - destruct (what_two _ _ H) as (a & [->|[b ->]]); cbn [app calm]; rewrite (plain_eq c Pc), (plain_eq t) by pl; cm.
  - cbn [app calm]. rewrite (plain_eq c Pc). cm.
Qed.
Lemma item_calm_last us o : shows_item us o -> calm 0 us.
Proof.
  intros [ts g H|ts g t H K|t K].
  - destruct (what_two _ _ H) as (a & [->|[b ->]]); cm.
  - destruct (what_two _ _ H) as (a & [->|[b ->]]); cm.
  - cm.
Qed.
Lemma shows_calm ts l : shows ts l -> calm 0 ts.
Proof. induction 1 as [ts o H|ts o c r l H C N _ IH]; [apply (item_calm_last _ _ H)|]. apply (item_calm ts o); [exact H|pl|exact IH]. Qed.
Lemma sentence_calm e ts c : sentence e ts c -> calm 0 ts.
Proof.
  intros []; try (repeat match goal with
     | H : if_exists _ _ |- _ => destruct H | H : if_not_exists _ _ |- _ => destruct H | H : if_cloud _ _ |- _ => destruct H
     | H : copies _ _ |- _ => destruct H | H : between _ _ _ |- _ => destruct H end; cm; fail).
  - cbn [calm]. rewrite (plain_eq a) by pl. apply (shows_calm _ _ H0).
  - pose proof (options_calm _ _ _ cloud_two H3). destruct H1; cm.
  - pose proof (options_calm _ _ _ cloud_two H4). destruct H1; cm.
  - pose proof (options_calm _ _ _ storage_two H3). destruct H1; cm.
  - pose proof (options_calm _ _ _ storage_two H4). destruct H1; cm.
  - pose proof (tiers_calm _ _ H2). cm.
Qed.

(* ---- texts ---- *)
Section TEXTS.
Variable strtod : list byte -> option (N * nat).
Lemma units_length : forall n ts, (List.length ts <= n)%nat -> (List.length (with_units ts) <= List.length ts)%nat.
Proof.
  induction n as [|n IH]; intros ts L; [destruct ts; [cbn; lia|cbn in L; lia]|]. destruct ts as [|t ts]; [cbn; lia|]. cbn in L.
  assert (A : (List.length (t :: with_units ts) <= List.length (t :: ts))%nat) by (cbn [List.length]; specialize (IH ts); lia).
  cbn [with_units]. destruct (t_id t =? KINT); [|exact A]. destruct (t_val t); try exact A. destruct ts as [|u ts]; [exact A|].
  destruct (factor (t_id u)); [|exact A]. cbn [List.length] in *. specialize (IH ts). lia.
Qed.
Lemma fuel_enough s rs : rawl strtod s rs -> (List.length (with_units rs) <= S (S (List.length s)))%nat.
Proof. intro H. pose proof (rawl_length strtod s rs H). pose proof (units_length _ rs (le_n _)). lia. Qed.
Lemma accepts e s c : parse strtod e s = Ok c <-> exists ts, tokens strtod s ts /\ sentence e (with_units ts) c.
Proof.
  split.
  - intro H. destruct (accepted_tokens strtod e s c H) as [rs T]. exists rs. split; [apply tokens_rawl, T|].
    pose proof (all_R strtod false e (S (S (List.length s))) (lex_start s) (with_units rs) (sees_start strtod false s rs T ltac:(discriminate))) as X.
    unfold parse in H. rewrite H in X. unfold gparse in X.
    pose proof (all_sound e (S (S (List.length s))) (with_units rs) (fuel_enough s rs T) (fit_units _ rs (le_n _) (rawl_fit strtod s rs T))) as Y.
    destruct (parse_all TL gnext gif gname e (S (S (List.length s))) (with_units rs)); try contradiction. subst. exact Y.
  - intros (ts & T & S). apply tokens_rawl in T. pose proof (calm_short _ (sentence_calm _ _ _ S)) as Sh.
    pose proof (all_R strtod true e (Datatypes.S (Datatypes.S (List.length s))) (lex_start s) (with_units ts) (sees_start strtod true s ts T (fun _ => Sh))) as X.
    unfold gparse in X. rewrite (all_complete e (with_units ts) c _ S (fuel_enough s ts T)) in X. unfold parse.
    destruct (parse_all lex _ _ _ e _ (lex_start s)); [congruence|contradiction|discriminate].
Qed.
(* no undefined behaviour: integers come in groups of three at most, and there is no $ *)
Lemma safe e s ts : tokens strtod s ts -> (forall n, (run (skipn n (with_units ts)) <= 3)%nat) -> ~ In dollar (with_units ts) -> parse strtod e s <> UB.
Proof.
  intros T Sh Nd E. apply tokens_rawl in T.
  pose proof (all_R strtod true e (S (S (List.length s))) (lex_start s) (with_units ts) (sees_start strtod true s ts T (fun _ => Sh))) as X.
  unfold parse in E. rewrite E in X. unfold gparse in X.
  pose proof (all_sound e (S (S (List.length s))) (with_units ts) (fuel_enough s ts T) (fit_units _ ts (le_n _) (rawl_fit strtod s ts T))) as Y.
  destruct (parse_all TL gnext gif gname e (S (S (List.length s))) (with_units ts)); try discriminate. contradiction.
Qed.
(* a text has one meaning *)
Lemma one_meaning e s c d ts us : tokens strtod s ts -> sentence e (with_units ts) c -> tokens strtod s us -> sentence e (with_units us) d -> ts = us /\ c = d.
Proof.
  intros T S T' S'. split; [apply tokens_rawl in T, T'; apply (rawl_fun strtod s); assumption|].
  assert (A : parse strtod e s = Ok c) by (apply accepts; eauto). assert (B : parse strtod e s = Ok d) by (apply accepts; eauto). congruence.
Qed.
(* refused otherwise *)
Lemma refused e s ts : tokens strtod s ts -> (forall n, (run (skipn n (with_units ts)) <= 3)%nat) -> ~ In dollar (with_units ts) ->
  (forall c, ~ sentence e (with_units ts) c) -> parse strtod e s = Err.
Proof.
  intros T Sh Nd No. destruct (parse strtod e s) as [c| |] eqn:E; [|reflexivity|elim (safe e s ts T Sh Nd E)].
  apply accepts in E as (us & T' & S). assert (us = ts) as -> by (apply tokens_rawl in T, T'; apply (rawl_fun strtod s); assumption). elim (No c S).
Qed.
End TEXTS.
