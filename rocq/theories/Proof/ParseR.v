(* The parser over the lexer does what the parser over the list of tokens does. *)
From Coq Require Import NArith ZArith Arith List Bool Lia String.
Import ListNotations.
From Verif Require Import Model.Base Model.Json Model.Lex Model.Uuid Model.Source Model.Catalog Model.Show Model.Parse
  Spec.Units Spec.Command Proof.ParseT.
Local Arguments N.mul : simpl never.
Local Arguments N.modulo : simpl never.
Local Open Scope res_scope.
Local Open Scope N_scope.

(* ---- the same operations over a list of tokens ---- *)
Definition gnext (ts : list token) : res (token * list token) := Ok (match ts with [] => (EOF, []) | t :: r => (t, r) end).
Definition gif (ts : list token) (id : N) : res (option token * list token) :=
  Ok (match ts with
      | [] => (if KEOF =? id then Some EOF else None, [])
      | t :: r => if t_id t =? id then (Some t, r) else (None, ts)
      end).
Definition gname (ts : list token) : res (option token * list token) :=
  Ok (match ts with
      | t :: r =>
        match t_val t with
        | TStr s _ => if t_id t =? KSTRING then (None, ts) else (Some (mk_tok KNAME (TStr s false)), r)
        | _ => (None, ts)
        end
      | [] => (None, [])
      end).

(* ---- runs of integers ---- *)
Fixpoint run (ts : list token) : nat := match ts with t :: r => if t_id t =? KINT then S (run r) else O | [] => O end.
Definition short (ts : list token) : Prop := forall n, (run (skipn n ts) <= 3)%nat.
Lemma short_tail t ts : short (t :: ts) -> short ts.
Proof. intros H n. apply (H (S n)). Qed.
Lemma short_head ts : short ts -> (run ts <= 3)%nat.
Proof. intro H. apply (H O). Qed.

Fixpoint cut (l : list token) : list token := match l with [] => [] | t :: r => if t_id t =? KEOF then [] else t :: cut r end.
Fixpoint shape (b : list token) : Prop := match b with [] => True | t :: r => (r <> [] -> t_id t = KINT) /\ shape r end.
Definition eof_ok (t : token) : Prop := t_id t = KEOF -> t = EOF.

Lemma units_nil ts : with_units ts = [] -> ts = [].
Proof.
  destruct ts as [|t ts]; [reflexivity|]. cbn [with_units]. destruct (t_id t =? KINT), (t_val t), ts as [|u ts]; try discriminate.
  destruct (factor (t_id u)); discriminate.
Qed.
Lemma units_other t ts : t_id t <> KINT -> with_units (t :: ts) = t :: with_units ts.
Proof. intro H. cbn [with_units]. rewrite (proj2 (N.eqb_neq _ _) H). reflexivity. Qed.
Lemma units_head u ts : exists w ws, with_units (u :: ts) = w :: ws /\ t_id w = t_id u.
Proof.
  cbn [with_units]. destruct (N.eqb_spec (t_id u) KINT) as [E|E]; [|eauto].
  destruct (t_val u); eauto. destruct ts as [|x ts]; eauto. destruct (factor (t_id x)); [|eauto].
  eexists _, _. split; [reflexivity|]. cbn [t_id]. congruence.
Qed.
Lemma fit_units : forall n ts, (List.length ts <= n)%nat -> Forall fit ts -> Forall fit (with_units ts).
Proof.
  induction n as [|n IH]; intros ts L H; [destruct ts; [constructor|cbn in L; lia]|].
  destruct ts as [|t ts]; [constructor|]. cbn in L. cbn [with_units].
  assert (A : Forall fit (t :: with_units ts)) by (constructor; [apply (Forall_inv H)|apply IH; [lia|apply (Forall_inv_tail H)]]).
  destruct (t_id t =? KINT); [|exact A]. destruct (t_val t); try exact A. destruct ts as [|u ts]; [exact A|].
  destruct (factor (t_id u)); [|exact A]. cbn in L.
  constructor; [left; cbn; eauto|]. apply IH; [lia|]. apply Forall_inv_tail in H. apply (Forall_inv_tail H).
Qed.
Lemma cut_fit ts : Forall fit ts -> cut ts = ts.
Proof.
  induction 1 as [|t ts H _ IH]; [reflexivity|]. cbn [cut]. rewrite (proj2 (N.eqb_neq _ _) (fit_not_eof t H)), IH. reflexivity.
Qed.
Lemma cut_units ts : Forall fit ts -> cut (with_units ts) = with_units ts.
Proof. intro H. apply cut_fit, (fit_units _ ts (le_n _) H). Qed.
Lemma factor_low id : id < 7 -> factor id = None.
Proof.
  intro H. assert (C : id = 0 \/ id = 1 \/ id = 2 \/ id = 3 \/ id = 4 \/ id = 5 \/ id = 6) by lia.
  destruct C as [->|[->|[->|[->|[->|[->| ->]]]]]]; reflexivity.
Qed.
Lemma factor_high id : 23 < id -> factor id = None.
Proof.
  intro H. unfold factor, KUSEC, KMSEC, KSEC, KMIN, KHOUR, KDAY, KWEEK, KMONTH, KYEAR, KKB, KKIB, KMB, KMIB, KGB, KGIB, KTB, KTIB.
  repeat match goal with |- context [?a =? ?b] => rewrite (proj2 (N.eqb_neq a b)) by lia end. reflexivity.
Qed.

Section R.
Variable strtod : list byte -> option (N * nat).
Notation rawl := (rawl strtod).

(* ---- a token read from the text ---- *)
Definition fresh_ok (f : nat) (s : list byte) (rs : list token) : Prop :=
  match lex_next_fuel strtod f (mk_lex s true []) with
  | Ok (tk, l') =>
    lx_kw l' = true /\ shape (lx_back l') /\ Forall eof_ok (lx_back l') /\ (List.length (lx_back l') <= run (with_units rs))%nat /\
    (List.length (lx_back l') <= 4)%nat /\ (t_id tk <> KINT -> lx_back l' = []) /\
    exists rs', rawl (lx_rest l') rs' /\ (In EOF (lx_back l') -> rs' = []) /\
      match with_units rs with [] => tk = EOF /\ rs' = [] | t :: ts' => tk = t /\ ts' = cut (lx_back l' ++ with_units rs') end
  | Err => False
  | UB => (5 <= run (with_units rs))%nat
  end.
Lemma push_ok l tk : lex_push l tk = Ok (mk_lex (lx_rest l) (lx_kw l) (tk :: lx_back l)) /\ (List.length (lx_back l) < 4)%nat \/
  lex_push l tk = UB /\ (4 <= List.length (lx_back l))%nat.
Proof. unfold lex_push. destruct (Nat.ltb_spec (List.length (lx_back l)) 4); auto. Qed.

Lemma fresh : forall s rs, rawl s rs -> forall f, (List.length s < f)%nat -> fresh_ok f s rs.
Proof.
  induction 1 as [s E|s t r rs E Hr IH]; intros [|f] Hf; try lia; unfold fresh_ok; rewrite lex_raw, E.
  - cbn. repeat split; try lia; try constructor. exists []. split; [constructor; reflexivity|]. split; [intros []|split; reflexivity].
  - pose proof (rawl_fit strtod r rs Hr) as Fr. pose proof (raw_fit strtod s t r E) as Ft.
    destruct (N.eqb_spec (t_id t) KINT) as [Et|Et].
    2:{ cbn [lx_kw lx_back lx_rest List.length app]. rewrite (units_other t rs Et). repeat split; try lia; try constructor.
        exists rs. split; [exact Hr|]. split; [intros []|]. split; [reflexivity|]. rewrite cut_units by assumption. reflexivity. }
    assert (V : exists v, t_val t = TInt v).
    { destruct Ft as [[_ V]|[[V _]|[[V _]|[[V _]|[V _]]]]]; [exact V| | | |];
        rewrite Et in V; exfalso; [discriminate V|discriminate V|vm_compute in V; elim V; reflexivity|unfold symbol, KINT in V; lia]. }
    destruct V as [v Ev]. pose proof (int_shorter strtod true s t r E Et) as Sh.
    specialize (IH f ltac:(lia)). unfold fresh_ok in IH.
    destruct (lex_next_fuel strtod f (mk_lex r true [])) as [[tk l]| |]; cbn [bind fst snd]; [|contradiction|].
    2:{ destruct rs as [|u rs]; [cbn in IH; lia|]. destruct (units_head u rs) as (w & ws & Ew & Iw).
        cbn [with_units]. rewrite Et, N.eqb_refl, Ev.
        destruct (factor (t_id u)) as [k|] eqn:Fk.
        - rewrite Ew in IH. cbn [run] in IH. destruct (N.eqb_spec (t_id w) KINT) as [Q|Q]; [|lia].
          rewrite Iw in Q. rewrite Q in Fk. discriminate Fk.
        - change (5 <= run (t :: with_units (u :: rs)))%nat. cbn [run]. rewrite Et, N.eqb_refl. lia. }
    destruct IH as (K & Sp & Eo & Ln & L4 & Ni & rs' & Hrs & He & Q).
    destruct rs as [|u rs].
    + cbn [with_units] in Q. destruct Q as [-> ->]. destruct l as [rest kw back]. cbn [lx_back lx_rest lx_kw] in *.
      assert (back = []) by (apply Ni; discriminate). subst. change (factor (t_id EOF)) with (@None N).
      unfold lex_push. cbn [List.length Nat.ltb Nat.leb bind lx_kw lx_back lx_rest].
      cbn [with_units]. rewrite Ev, Et. change (KINT =? KINT) with true. cbn [run]. rewrite Et. change (KINT =? KINT) with true.
      repeat split; cbn; try lia; try (constructor; [intros _; reflexivity|constructor]); try congruence.
      exists []. repeat split; auto.
    + destruct (units_head u rs) as (w & ws & Ew & Iw). rewrite Ew in Q, Ln. destruct Q as [-> Q].
      rewrite Iw. cbn [with_units]. rewrite Et. change (KINT =? KINT) with true. rewrite Ev.
      destruct (factor (t_id u)) as [k|] eqn:Fk.
      * assert (Iu : t_id u <> KINT) by (intro X; rewrite X in Fk; discriminate).
        rewrite (units_other u rs Iu) in Ew. injection Ew as <- <-.
        rewrite (Ni Iu) in *. cbn [lx_kw lx_back lx_rest List.length run t_id].
        repeat split; auto; try lia.
        exists rs'. split; [exact Hrs|]. split; [exact He|]. split; [reflexivity|exact Q].
      * destruct (push_ok l w) as [[-> Hl]|[-> Hl]]; cbn [bind].
        2:{ fold with_units. change (with_units (u :: rs)) with (with_units (u :: rs)). cbn [run]. rewrite Et. change (KINT =? KINT) with true.
            change (5 <= S (run (with_units (u :: rs))))%nat. rewrite Ew. lia. }
        cbn [lx_kw lx_back lx_rest].
        assert (Fw : fit w).
        { pose proof (fit_units _ (u :: rs) (le_n _) Fr) as X. rewrite Ew in X. apply (Forall_inv X). }
        change (match u :: rs with [] => [] | _ => with_units (u :: rs) end) with (with_units (u :: rs)) || idtac.
        split; [exact K|]. split; [split; [intro X; destruct (N.eq_dec (t_id w) KINT) as [Y|Y]; [exact Y|elim X; apply Ni, Y]|exact Sp]|].
        split; [constructor; [intro X; elim (fit_not_eof w Fw X)|exact Eo]|].
        split; [cbn [run]; rewrite Et; change (KINT =? KINT) with true; change (S (List.length (lx_back l)) <= S (run (with_units (u :: rs))))%nat; rewrite Ew; lia|].
        split; [cbn [List.length]; lia|]. split; [congruence|].
        exists rs'. split; [exact Hrs|]. split.
        { intros [X|X]; [|apply He, X]. subst w. elim (fit_not_eof _ Fw). reflexivity. }
        split; [reflexivity|]. change (with_units (u :: rs) = cut ((w :: lx_back l) ++ with_units rs')). rewrite Ew.
        cbn [app cut]. rewrite (proj2 (N.eqb_neq _ _) (fit_not_eof w Fw)), Q. reflexivity.
Qed.

(* ---- the tokens that a lexer will give ---- *)
Definition sees (b : bool) (l : lex) (ts : list token) : Prop :=
  lx_kw l = true /\ (List.length (lx_back l) <= 4)%nat /\ shape (lx_back l) /\ Forall eof_ok (lx_back l) /\
  exists rs, rawl (lx_rest l) rs /\ (In EOF (lx_back l) -> rs = []) /\ ts = cut (lx_back l ++ with_units rs) /\ (b = true -> short ts).

Definition R (b : bool) {A : Type} (x : res (A * lex)) (y : res (A * list token)) : Prop :=
  match x, y with
  | Ok (a, l), Ok (a', ts) => a = a' /\ sees b l ts
  | Err, Err => True
  | UB, UB => True
  | UB, _ => b = false
  | _, _ => False
  end.
Definition RL (b : bool) (x : res lex) (y : res (list token)) : Prop :=
  match x, y with
  | Ok l, Ok ts => sees b l ts
  | Err, Err => True
  | UB, UB => True
  | UB, _ => b = false
  | _, _ => False
  end.

Lemma sees_start b s rs : rawl s rs -> (b = true -> short (with_units rs)) -> sees b (lex_start s) (with_units rs).
Proof.
  intros H S. unfold sees, lex_start. cbn [lx_kw lx_back lx_rest List.length app shape].
  split; [reflexivity|]. split; [lia|]. split; [exact I|]. split; [constructor|]. exists rs.
  split; [exact H|]. split; [intros []|]. rewrite cut_units by (apply (rawl_fit strtod s), H). split; [reflexivity|exact S].
Qed.

Definition after (b : bool) (ts : list token) (tk : token) (l : lex) : Prop :=
  sees b l (tl ts) /\ tk = hd EOF ts /\ (t_id tk <> KINT -> lx_back l = []) /\
  ((List.length (lx_back l) <= run ts)%nat \/ (List.length (lx_back l) <= 3)%nat) /\
  (ts = [] -> rawl (lx_rest l) []) /\ (ts <> [] -> t_id tk <> KEOF).
Lemma cut_fits l : Forall eof_ok l -> Forall (fun t => t_id t <> KEOF) (cut l).
Proof.
  induction l as [|t l IH]; intro H; cbn [cut]; [constructor|]. destruct (N.eqb_spec (t_id t) KEOF); [constructor|].
  constructor; [assumption|]. apply IH, (Forall_inv_tail H).
Qed.

Lemma next_after b l ts : sees b l ts ->
  match lex_next strtod l with Ok (tk, l') => after b ts tk l' | Err => False | UB => b = false end.
Proof.
  intros (K & L4 & Sp & Eo & rs & Hr & He & -> & Sh). destruct l as [s kw back]. cbn [lx_kw lx_back lx_rest] in *. subst kw.
  unfold lex_next. cbn [lx_rest]. destruct back as [|tk back].
  - cbn [app] in *. rewrite cut_units in * by (apply (rawl_fit strtod s), Hr).
    pose proof (fresh s rs Hr (S (List.length s)) ltac:(lia)) as F. unfold fresh_ok in F.
    destruct (lex_next_fuel strtod (S (List.length s)) (mk_lex s true [])) as [[tk l]| |]; [|exact F|].
    2:{ destruct b; [|reflexivity]. pose proof (short_head _ (Sh eq_refl)). lia. }
    destruct F as (K & Sp' & Eo' & Ln & L4' & Ni & rs' & Hr' & He' & Q).
    pose proof (fit_units _ rs (le_n _) (rawl_fit strtod s rs Hr)) as Fu.
    destruct (with_units rs) as [|t ts'] eqn:Eu.
    + destruct Q as [-> ->]. cbn [tl hd] in *. rewrite (Ni ltac:(discriminate)) in *. unfold after. cbn [tl hd].
      split; [|split; [reflexivity|split; [intros _; apply Ni; discriminate|split; [right; rewrite (Ni ltac:(discriminate)); cbn; lia|split; [intros _; exact Hr'|congruence]]]]].
      unfold sees. rewrite (Ni ltac:(discriminate)). split; [exact K|]. split; [cbn; lia|]. split; [exact I|]. split; [constructor|].
      exists []. repeat split; auto.
    + destruct Q as [-> ->]. unfold after. cbn [tl hd].
      split; [|split; [reflexivity|split; [exact Ni|split; [left; exact Ln|split; [discriminate|intros _; apply fit_not_eof, (Forall_inv Fu)]]]]].
      split; [exact K|]. split; [exact L4'|]. split; [exact Sp'|]. split; [exact Eo'|]. exists rs'.
      split; [exact Hr'|]. split; [exact He'|]. split; [reflexivity|]. intro Bt. apply (short_tail t), Sh, Bt.
  - cbn [lex_next_fuel lx_back lx_rest lx_kw]. cbn [List.length shape] in *. destruct Sp as [S1 Sp].
    pose proof (Forall_inv Eo) as E1. pose proof (Forall_inv_tail Eo) as Eo'. unfold after, sees. cbn [app cut lx_kw lx_back lx_rest] in *.
    assert (Nb : t_id tk <> KINT -> back = []) by (intro X; destruct back; [reflexivity|elim X; apply S1; discriminate]).
    destruct (N.eqb_spec (t_id tk) KEOF) as [E|E].
    + assert (X : back = []) by (apply Nb; rewrite E; discriminate). subst back. rewrite (E1 E) in *. specialize (He (or_introl eq_refl)). subst rs.
      cbn [tl hd List.length]. split; [split; [reflexivity|split; [lia|split; [exact I|split; [constructor|exists []; repeat split; auto]]]]|].
      split; [reflexivity|]. split; [reflexivity|]. split; [right; lia|]. split; [intros _; exact Hr|congruence].
    + cbn [tl hd]. split.
      { split; [reflexivity|]. split; [lia|]. split; [exact Sp|]. split; [exact Eo'|]. exists rs. split; [exact Hr|].
        split; [intro X; apply He; right; exact X|]. split; [reflexivity|]. intro Bt. apply (short_tail tk), Sh, Bt. }
      split; [reflexivity|]. split; [exact Nb|]. split; [right; lia|]. split; [discriminate|]. intros _. exact E.
Qed.
Lemma next_R b l ts : sees b l ts -> R b (lex_next strtod l) (gnext ts).
Proof.
  intro H. pose proof (next_after b l ts H) as N. unfold R, gnext. destruct (lex_next strtod l) as [[tk l']| |]; [|contradiction|].
  - destruct N as (S & E & _). destruct ts; cbn [hd tl] in *; auto.
  - exact N.
Qed.
Lemma cut_in (t : token) l : t_id t <> KEOF -> In t (cut l) -> In t l.
Proof. induction l as [|x l IH]; cbn [cut]; [auto|]. destruct (t_id x =? KEOF); [intros _ []|]. intros A [B|B]; [left; exact B|right; auto]. Qed.

(* putting back the token just taken *)
Lemma push_R b l ts tk l' : sees b l ts -> after b ts tk l' ->
  match lex_push l' tk with Ok l'' => sees b l'' ts | Err => False | UB => b = false end.
Proof.
  intros H (S & E & Ni & Ln & Z & NE). unfold lex_push.
  destruct H as (_ & _ & _ & Eo0 & rs0 & Hr0 & _ & Ets & Sh).
  destruct (Nat.ltb_spec (List.length (lx_back l')) 4) as [Lt|Ge].
  2:{ destruct b; [|reflexivity]. pose proof (short_head _ (Sh eq_refl)). lia. }
  destruct S as (K & L4 & Sp & Eo & rs & Hr & He & Etl & Sh'). unfold sees. cbn [lx_kw lx_back lx_rest List.length].
  split; [exact K|]. split; [lia|].
  split. { cbn [shape]. split; [|exact Sp]. intro X. destruct (N.eq_dec (t_id tk) KINT) as [Y|Y]; [exact Y|elim X; apply Ni, Y]. }
  destruct ts as [|t ts]; cbn [hd tl] in *; subst tk.
  - split; [constructor; [intros _; reflexivity|exact Eo]|]. rewrite (Ni ltac:(discriminate)) in *. exists []. split; [apply Z; reflexivity|].
    split; [reflexivity|]. split; [reflexivity|]. exact Sh.
  - specialize (NE ltac:(discriminate)). split; [constructor; [intro X; elim (NE X)|exact Eo]|]. exists rs. split; [exact Hr|].
    split; [intros [X|X]; [subst t; elim NE; reflexivity|apply He, X]|].
    cbn [app cut]. rewrite (proj2 (N.eqb_neq _ _) NE), <- Etl. split; [reflexivity|exact Sh].
Qed.
Definition Racc (b : bool) (x : res (option token * lex)) (y : res (option token * list token)) : Prop :=
  R b x y /\ forall t l, x = Ok (Some t, l) -> t_id t <> KINT -> lx_back l = [].
Lemma accept_Racc b l ts id : sees b l ts -> Racc b (lex_if strtod l id) (gif ts id).
Proof.
  intro H. pose proof (next_after b l ts H) as N. unfold lex_if. destruct (lex_next strtod l) as [[tk l']| |]; [|contradiction|].
  2:{ split; [exact N|discriminate]. }
  cbn [bind fst snd]. pose proof (push_R b l ts tk l' H N) as P. pose proof N as (S & E & Ni & _).
  unfold gif. destruct (N.eqb_spec (t_id tk) id) as [Q|Q].
  - split; [|intros t l2 X Y; injection X as <- <-; apply Ni, Y]. destruct ts as [|t ts]; cbn [hd tl] in *; subst tk.
    + change (t_id EOF) with KEOF in Q. subst id. change (KEOF =? KEOF) with true. split; [reflexivity|exact S].
    + rewrite Q, N.eqb_refl. split; [reflexivity|exact S].
  - split; [|destruct (lex_push l' tk); cbn [bind]; discriminate].
    destruct (lex_push l' tk) as [l2| |]; cbn [bind]; [|contradiction|].
    + destruct ts as [|t ts]; cbn [hd tl] in *; subst tk.
      * change (t_id EOF) with KEOF in Q. rewrite (proj2 (N.eqb_neq _ _) Q). split; [reflexivity|exact P].
      * rewrite (proj2 (N.eqb_neq _ _) Q). split; [reflexivity|exact P].
    + exact P.
Qed.
Lemma accept_R b l ts id : sees b l ts -> R b (lex_if strtod l id) (gif ts id).
Proof. intro H. apply (proj1 (accept_Racc b l ts id H)). Qed.

(* ---- a name, read with the keywords off ---- *)
Definition unkey (t : token) : token :=
  match t_val t with TStr w e => if t_id t =? KSTRING then t else mk_tok KNAME (TStr w e) | _ => t end.
Lemma raw_unkey s t r : raw1 strtod true s = Ok (Some (t, r)) -> raw1 strtod false s = Ok (Some (unkey t, r)).
Proof.
  unfold raw1. destruct (skip_blank false s) as [|b l]; [discriminate|].
  destruct (negb (b =? 34) && negb (b =? 39) && negb (b =? 95) && ispunct b); [intro X; injection X as <- <-; reflexivity|].
  destruct (isdigit b).
  { destruct (scan_digits 0 (b :: l)) as [[v u]|]; [intro X; injection X as <- <-; reflexivity|].
    destruct (strtod (b :: l)) as [[v n]|]; [|discriminate]. intro X. injection X as <- <-. reflexivity. }
  destruct (isalpha b || (b =? 95)).
  { destruct (scan_name (b :: l)) as [w u]. pose proof (keyword_id w) as K. remember (find_keyword keywords w) as k. clear Heqk.
    intro X. injection X as <- <-. unfold unkey. cbn [t_val t_id].
    destruct (N.eqb_spec k KSTRING) as [E|E]; [subst k; vm_compute in K; elim K; reflexivity|reflexivity]. }
  destruct ((b =? 34) || (b =? 39)); [|discriminate].
  destruct (scan_quoted b false false l) as [[[x e] u]| |]; cbn [bind fst snd]; try discriminate. intro X. injection X as <- <-. reflexivity.
Qed.
Lemma raw_end_off s : raw1 strtod true s = Ok None -> raw1 strtod false s = Ok None.
Proof.
  unfold raw1. destruct (skip_blank false s) as [|b l]; [auto|].
  destruct (negb (b =? 34) && negb (b =? 39) && negb (b =? 95) && ispunct b); [discriminate|].
  destruct (isdigit b); [destruct (scan_digits 0 (b :: l)) as [[]|]; [discriminate|destruct (strtod (b :: l)) as [[]|]; discriminate]|].
  destruct (isalpha b || (b =? 95)); [destruct (scan_name (b :: l)); discriminate|].
  destruct ((b =? 34) || (b =? 39)); [|discriminate]. destruct (scan_quoted b false false l) as [[[]]| |]; discriminate.
Qed.
Lemma unkey_int t : fit t -> t_id (unkey t) = KINT <-> t_id t = KINT.
Proof.
  unfold unkey. intros [[A [n B]]|[[A [n B]]|[[A [s [e B]]]|[[A [s B]]|[A B]]]]]; rewrite B; try tauto.
  - rewrite A. change (KSTRING =? KSTRING) with true. cbv iota. rewrite A. tauto.
  - destruct (N.eqb_spec (t_id t) KSTRING) as [X|X]; [tauto|]. cbn [t_id]. split; [discriminate|]. intro Y. rewrite Y in A. vm_compute in A. elim A. reflexivity.
Qed.
Lemma unkey_unit t : fit t -> factor (t_id (unkey t)) = None.
Proof.
  unfold unkey. intros [[A [n B]]|[[A [n B]]|[[A [s [e B]]]|[[A [s B]]|[A B]]]]]; rewrite B.
  - rewrite A. reflexivity.
  - rewrite A. reflexivity.
  - rewrite A. change (KSTRING =? KSTRING) with true. cbv iota. rewrite A. reflexivity.
  - destruct (N.eqb_spec (t_id t) KSTRING) as [X|X]; [rewrite X; reflexivity|reflexivity].
  - apply factor_high. unfold symbol in A. lia.
Qed.
Lemma run_units : forall n rs, (List.length rs <= n)%nat -> (run rs <= run (with_units rs))%nat.
Proof.
  induction n as [|n IH]; intros rs L; [destruct rs; [cbn; lia|cbn in L; lia]|].
  destruct rs as [|t rs]; [cbn; lia|]. cbn in L. cbn [run]. destruct (N.eqb_spec (t_id t) KINT) as [E|E]; [|lia].
  assert (A : (S (run rs) <= run (t :: with_units rs))%nat).
  { cbn [run]. rewrite E, N.eqb_refl. specialize (IH rs). lia. }
  cbn [with_units]. rewrite E. change (KINT =? KINT) with true. destruct (t_val t); try exact A. destruct rs as [|u rs]; [exact A|].
  destruct (factor (t_id u)) eqn:F; [|exact A]. cbn [run t_id]. change (KINT =? KINT) with true.
  destruct (N.eqb_spec (t_id u) KINT) as [X|X]; [rewrite X in F; discriminate|]. lia.
Qed.
Lemma fresh_off : forall s rs, rawl s rs -> forall f, (List.length s < f)%nat ->
  match lex_next_fuel strtod f (mk_lex s false []) with
  | Ok (tk, l') =>
    lx_kw l' = false /\ (List.length (lx_back l') <= run rs)%nat /\ (List.length (lx_back l') <= 4)%nat /\
    match rs with
    | [] => tk = EOF /\ l' = mk_lex [] false []
    | t :: _ => (t_id tk = KINT <-> t_id t = KINT) /\ (t_id t <> KINT -> tk = unkey t)
    end
  | Err => False
  | UB => (5 <= run rs)%nat
  end.
Proof.
  induction 1 as [s E|s t r rs E Hr IH]; intros [|f] Hf; try lia; rewrite lex_raw.
  - rewrite (raw_end_off s E). cbn. repeat split; lia.
  - rewrite (raw_unkey s t r E). pose proof (raw_fit strtod s t r E) as Ft.
    destruct (N.eqb_spec (t_id (unkey t)) KINT) as [Et|Et].
    2:{ cbn [lx_kw lx_back List.length]. repeat split; try lia; try tauto. pose proof (unkey_int t Ft). tauto. }
    pose proof (proj1 (unkey_int t Ft) Et) as Et'. pose proof (int_shorter strtod true s t r E Et') as Sh.
    specialize (IH f ltac:(lia)). pose proof (rawl_fit strtod r rs Hr) as Fr.
    assert (Rn : run (t :: rs) = S (run rs)) by (cbn [run]; rewrite Et'; reflexivity).
    destruct (lex_next_fuel strtod f (mk_lex r false [])) as [[tk l]| |]; cbn [bind fst snd]; [|contradiction|lia].
    destruct IH as (K & Ln & L4 & Q).
    assert (Fn : factor (t_id tk) = None).
    { destruct rs as [|u rs]; [destruct Q as [-> _]; reflexivity|]. destruct Q as [Q1 Q2].
      destruct (N.eq_dec (t_id u) KINT) as [X|X]; [rewrite (proj2 Q1 X); reflexivity|]. rewrite (Q2 X). apply unkey_unit, (Forall_inv Fr). }
    rewrite Fn. destruct (push_ok l tk) as [[-> Hl]|[-> Hl]]; cbn [bind]; [|lia].
    cbn [lx_kw lx_back List.length]. split; [exact K|]. split; [lia|]. split; [lia|]. split; [tauto|]. congruence.
Qed.

(* an integer was put back with the keywords off: no later test succeeds *)
Definition doomed (l : lex) (ts : list token) : Prop :=
  (exists t back, lx_back l = t :: back /\ t_id t = KINT /\ (List.length back <= 3)%nat) /\ (exists t r, ts = t :: r /\ t_id t = KINT).
Lemma doomed_if l ts id : doomed l ts -> id <> KINT -> lex_if strtod l id = Ok (None, l) /\ gif ts id = Ok (None, ts).
Proof.
  intros [(t & back & E & Et & L) (t' & r & -> & Et')] H. destruct l as [s kw bk]. cbn [lx_back] in E. subst bk. split.
  - unfold lex_if, lex_next. cbn [lex_next_fuel lx_back lx_rest lx_kw bind fst snd]. rewrite Et, (proj2 (N.eqb_neq _ _)) by congruence.
    unfold lex_push. cbn [lx_back lx_rest lx_kw]. destruct (Nat.ltb_spec (List.length back) 4); [reflexivity|lia].
  - unfold gif. rewrite Et', (proj2 (N.eqb_neq _ _)) by congruence. reflexivity.
Qed.
Lemma name_R b l ts : sees b l ts -> lx_back l = [] ->
  R b (lex_if_name strtod l) (gname ts) \/
  (exists l', lex_if_name strtod l = Ok (None, l') /\ gname ts = Ok (None, ts) /\ doomed l' ts) \/
  (lex_if_name strtod l = UB /\ b = false).
Proof.
  intros (K & _ & _ & _ & rs & Hr & _ & -> & Sh) Eb. rewrite Eb in *. cbn [app] in *. rewrite cut_units in * by (apply (rawl_fit strtod _ _ Hr)).
  destruct l as [s kw back]. cbn [lx_kw lx_back lx_rest] in *. subst kw back.
  pose proof (fresh_off s rs Hr (S (List.length s)) ltac:(lia)) as F.
  unfold lex_if_name, lex_if, lex_next, lex_keywords. cbn [lx_rest lx_kw lx_back].
  pose proof (rawl_fit strtod s rs Hr) as Fr.
  inversion Hr as [s0 E|s0 t r rs' E Hr']; subst.
  - left. rewrite lex_raw, (raw_end_off s E). cbn [bind fst snd t_id]. change (t_id EOF =? KNAME) with false. unfold lex_push.
    cbn [lx_back List.length Nat.ltb Nat.leb bind lx_rest lx_kw fst snd R gname with_units]. split; [reflexivity|].
    unfold sees. cbn [lx_kw lx_back lx_rest List.length shape]. split; [reflexivity|]. split; [lia|]. split; [split; [congruence|exact I]|].
    split; [constructor; [intros _; reflexivity|constructor]|]. exists []. split; [constructor; reflexivity|]. repeat split; auto.
  - pose proof (Forall_inv Fr) as Ft. destruct (N.eq_dec (t_id t) KINT) as [Et|Et].
    + (* an integer *)
      destruct (units_head t rs') as (w & ws & Ew & Iw).
      pose proof (run_units _ (t :: rs') (le_n _)) as Ru.
      destruct (lex_next_fuel strtod (S (List.length s)) (mk_lex s false [])) as [[tk l]| |]; cbn [bind fst snd]; [|contradiction|].
      2:{ right; right. split; [reflexivity|]. destruct b; [|reflexivity]. pose proof (short_head _ (Sh eq_refl)). lia. }
      destruct F as (K & Ln & L4 & Q & _). rewrite (proj2 (N.eqb_neq _ _)) by (rewrite (proj2 Q Et); discriminate).
      destruct (push_ok l tk) as [[-> Hl]|[-> Hl]]; cbn [bind fst snd].
      * right; left. eexists. split; [reflexivity|]. split.
        { unfold gname. rewrite Ew. rewrite Et in Iw. pose proof (fit_units _ _ (le_n _) Fr) as Fw. rewrite Ew in Fw.
          destruct (Forall_inv Fw) as [[A [n B]]|[[A [n B]]|[[A [x [e B]]]|[[A [x B]]|[A B]]]]]; rewrite B; try reflexivity; exfalso.
          - rewrite Iw in A. discriminate A.
          - rewrite Iw in A. vm_compute in A. elim A. reflexivity. }
        split; cbn [lx_back]; [exists tk, (lx_back l); repeat split; [apply Q, Et|lia]|]. exists w, ws. split; [exact Ew|congruence].
      * right; right. split; [reflexivity|]. destruct b; [|reflexivity]. pose proof (short_head _ (Sh eq_refl)). lia.
    + left. rewrite lex_raw, (raw_unkey s t r E). pose proof (unkey_int t Ft) as Ui.
      rewrite (proj2 (N.eqb_neq (t_id (unkey t)) KINT)) by tauto. cbn [bind fst snd]. rewrite (units_other t rs' Et) in *.
      unfold gname.
      assert (Sn : forall bk, (bk = [] \/ bk = [t]) -> sees b (mk_lex r true bk) (if bk then with_units rs' else t :: with_units rs')).
      { intros bk Hb. unfold sees. cbn [lx_kw lx_back lx_rest].
        pose proof (cut_units rs' (Forall_inv_tail Fr)) as C.
        split; [reflexivity|]. split; [destruct Hb; subst; cbn; lia|]. split; [destruct Hb; subst; cbn; auto; split; [congruence|exact I]|].
        split; [destruct Hb; subst; [constructor|constructor; [intro X; elim (fit_not_eof t Ft X)|constructor]]|].
        exists rs'. split; [exact Hr'|]. split; [destruct Hb; subst; [intros []|intros [X|[]]; subst t; elim (fit_not_eof _ Ft); reflexivity]|].
        destruct Hb; subst bk; cbn [app cut]; [|rewrite (proj2 (N.eqb_neq _ _) (fit_not_eof t Ft))]; rewrite C;
          (split; [reflexivity|]); intro Bt; [apply (short_tail t), Sh, Bt|apply Sh, Bt]. }
      pose proof (Sn [] (or_introl eq_refl)) as S0. pose proof (Sn [t] (or_intror eq_refl)) as S1. cbv iota in S0, S1. clear Sn.
      unfold unkey. unfold lex_push. cbn [lx_back lx_rest lx_kw].
      destruct Ft as [[A [n B]]|[[A [n B]]|[[A [x [e B]]]|[[A [x B]]|[A B]]]]]; rewrite B; [congruence| | | |].
      * rewrite A. change (KREAL =? KNAME) with false. cbn [List.length Nat.ltb Nat.leb bind fst snd R lx_rest lx_back]. split; [reflexivity|exact S1].
      * rewrite A. change (KSTRING =? KSTRING) with true. cbv iota. rewrite A. change (KSTRING =? KNAME) with false. cbn [List.length Nat.ltb Nat.leb bind fst snd R lx_rest lx_back]. split; [reflexivity|exact S1].
      * destruct (N.eqb_spec (t_id t) KSTRING) as [X|X]; [rewrite X in A; vm_compute in A; elim A; reflexivity|].
        cbn [t_id]. change (KNAME =? KNAME) with true. cbn [R bind fst snd lx_rest lx_back]. split; [reflexivity|exact S0].
      * rewrite (proj2 (N.eqb_neq (t_id t) KNAME)) by (unfold symbol in A; unfold KNAME; lia).
        cbn [List.length Nat.ltb Nat.leb bind fst snd R lx_rest lx_back]. split; [reflexivity|exact S1].
Qed.
End R.
