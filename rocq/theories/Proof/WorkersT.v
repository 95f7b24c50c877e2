From Coq Require Import NArith ZArith Arith List Bool Lia.
Import ListNotations.
From Verif Require Import Model.Base Model.Service Model.Workers Spec.Threads Proof.WorkersL.

Fixpoint alive (j : nat) (ts : list thread) : Prop :=
  match ts with
  | [] => True
  | t :: ts => t_array t = 0%nat /\ t_slot t = j /\ t_state t <> TJoined /\ alive (S j) ts
  end.
Definition gone (j : nat) : list thread := map (fun i => mk_thread 0 i TJoined) (seq 0 j).
Lemma gone_length j : length (gone j) = j.
Proof. unfold gone. rewrite map_length, seq_length. reflexivity. Qed.
Lemma gone_S j : gone (S j) = gone j ++ [mk_thread 0 j TJoined].
Proof. unfold gone. rewrite seq_S, map_app. reflexivity. Qed.

(* [j] of the threads are joined *)
Record opened (w : world) (fs : list filter) (j : nat) : Prop := {
  op_workers : wd_workers w = Some 0%nat;
  op_count : wd_count w = Z.of_nat (length fs);
  op_arrays : wd_arrays w = [Some (blank (firstn j fs) ++ number j (skipn j fs))];
  op_threads : exists ts, wd_threads w = gone j ++ ts /\ alive j ts /\ length ts = (length fs - j)%nat;
  op_j : (j <= length fs)%nat;
  op_handle : wd_handle w = true }.
Definition fresh (w : world) : Prop := wd_workers w = None /\ wd_count w = 0%Z /\ wd_arrays w = [] /\ wd_threads w = [].
Definition done (w : world) : Prop := wd_workers w = None /\ wd_count w = 0%Z /\ no_thread_left w.
Lemma fresh_done w : fresh w -> done w.
Proof. intros [A [B [C D]]]. split; [exact A|]. split; [exact B|]. unfold no_thread_left. rewrite C, D. split; constructor. Qed.

(* the program knows each cursor at least as well *)
Definition knows (p : plan) (w : world) : Prop :=
  Forall2 (fun x c => fst x = true -> c_memory c = true /\ c_holds c = snd x) (p_cursors p) (wd_cursors w).

Definition inv (p : plan) (w : world) : Prop :=
  knows p w /\
  (p_freed p = true -> wd_shutdown w = true /\ Forall (fun c => fst c = true -> snd c = false) (p_cursors p)) /\
  match wd_caller w with
  | Outside =>
    if wd_handle w then p_freed p = false /\ ((fresh w /\ p_opened p = false) \/ (p_opened p = true /\ exists fs, opened w fs 0))
    else p_freed p = true /\ done w
  | Joining j => p_freed p = true /\ wd_handle w = true /\ ((j = 0%nat /\ fresh w) \/ exists fs, opened w fs j)
  | Closing => p_freed p = true /\ wd_handle w = true /\ done w
  end.

Lemma inv0 : inv plan0 world0.
Proof. split; [constructor|]. split; [discriminate|]. cbn. split; [reflexivity|]. left. repeat split. Qed.

Lemma knows_nth p w c h : knows p w -> nth_error (p_cursors p) c = Some (true, h) ->
  exists x, nth_error (wd_cursors w) c = Some x /\ c_memory x = true /\ c_holds x = h.
Proof.
  intros K. revert c. induction K as [|x y l l' Q K IH]; intros c E; [destruct c; discriminate|].
  destruct c as [|c]; [|exact (IH c E)]. cbn in E. injection E as ->. exists y. split; [reflexivity|]. exact (Q eq_refl).
Qed.
Lemma knows_set (P : bool * bool -> cursor -> Prop) l l' c x y : Forall2 P l l' -> P x y -> Forall2 P (set_nth l c x) (set_nth l' c y).
Proof.
  intros K Q. unfold set_nth. assert (EL : length l = length l') by (induction K; cbn; congruence).
  rewrite EL. destruct (c <? length l')%nat; [|exact K]. clear EL.
  revert c. induction K as [|a b l l' H K IH]; intros c; [destruct c; cbn; constructor; [exact Q|constructor|exact Q|constructor]|].
  destruct c as [|c]; [constructor; [exact Q|exact K]|]. specialize (IH c). cbn [firstn skipn app] in *. constructor; [exact H|exact IH].
Qed.
Lemma knows_left (P : bool * bool -> cursor -> Prop) l l' c x : Forall2 P l l' -> (forall y, P x y) -> Forall2 P (set_nth l c x) l'.
Proof.
  intros K Q. unfold set_nth. destruct (Nat.ltb_spec c (length l)) as [L|]; [|exact K].
  revert c L. induction K as [|a b l l' H K IH]; intros c L; [cbn in L; lia|].
  destruct c as [|c]; cbn; constructor; auto. apply IH. cbn in L. lia.
Qed.
Lemma set_Forall {A} (P : A -> Prop) l c x : Forall P l -> P x -> Forall P (set_nth l c x).
Proof.
  intros H Q. unfold set_nth. destruct (c <? length l)%nat; [|exact H].
  apply Forall_app. split.
  - rewrite <- (firstn_skipn c l) in H. exact (proj1 (proj1 (Forall_app _ _ _) H)).
  - constructor; [exact Q|]. rewrite <- (firstn_skipn (S c) l) in H. exact (proj2 (proj1 (Forall_app _ _ _) H)).
Qed.

(* threads of an opened handle *)
Lemma alive_nth : forall ts j i t, alive j ts -> nth_error ts i = Some t -> t_array t = 0%nat /\ t_slot t = (j + i)%nat /\ t_state t <> TJoined.
Proof.
  induction ts as [|x ts IH]; intros j i t A E; [destruct i; discriminate|]. destruct A as [A [B [C D]]].
  destruct i as [|i]; [cbn in E; injection E as <-; rewrite Nat.add_0_r; auto|]. cbn in E.
  rewrite Nat.add_succ_r. exact (IH (S j) i t D E).
Qed.
Lemma alive_set : forall ts j i st, alive j ts -> st <> TJoined -> (i < length ts)%nat -> alive j (set_nth ts i (mk_thread 0 (j + i) st)).
Proof.
  induction ts as [|x ts IH]; intros j i st A N L; [cbn in L; lia|]. destruct A as [A [B [C D]]].
  destruct i as [|i].
  - unfold set_nth. cbn. rewrite Nat.add_0_r. auto.
  - assert (Q : set_nth (x :: ts) (S i) (mk_thread 0 (j + S i) st) = x :: set_nth ts i (mk_thread 0 (S j + i) st)).
    { unfold set_nth. cbn [length]. change (S i <? S (length ts))%nat with (i <? length ts)%nat. rewrite <- plus_n_Sm.
      destruct (i <? length ts)%nat; reflexivity. }
    rewrite Q. cbn [alive]. repeat split; auto. apply IH; auto. cbn in L. lia.
Qed.
Lemma thread_of w fs j t th : opened w fs j -> nth_error (wd_threads w) t = Some th -> t_state th <> TJoined ->
  (j <= t)%nat /\ (t < length fs)%nat /\ t_array th = 0%nat /\ t_slot th = t /\ sees w th = true.
Proof.
  intros [W C A [ts [T [L N]]] J H] E S1. rewrite T in E.
  destruct (Nat.lt_ge_cases t j) as [K|K].
  { exfalso. rewrite nth_error_app1 in E by (rewrite gone_length; exact K). unfold gone in E.
    apply nth_error_In in E. apply in_map_iff in E. destruct E as [i [<- _]]. apply S1. reflexivity. }
  rewrite nth_error_app2, gone_length in E by (rewrite gone_length; exact K).
  destruct (alive_nth ts j (t - j) th L E) as [X [Y _]]. assert (t - j < length ts)%nat by (apply nth_error_Some; rewrite E; discriminate).
  split; [exact K|]. split; [lia|]. split; [exact X|]. split; [lia|].
  unfold sees. rewrite H, A, X. cbn [nth_error andb]. rewrite app_length. unfold blank. rewrite map_length, number_length, firstn_length, skipn_length.
  apply Nat.ltb_lt. lia.
Qed.
Lemma ends_opened w fs j t th : opened w fs j -> nth_error (wd_threads w) t = Some th -> t_state th = TRuns ->
  opened (with_threads w (set_nth (wd_threads w) t (mk_thread (t_array th) (t_slot th) TEnded))) fs j.
Proof.
  intros O E S1. destruct (thread_of w fs j t th O E) as [K [L [X [Y _]]]]; [rewrite S1; discriminate|].
  destruct O as [W C A [ts [T [AL N]]] J H]. constructor; auto. cbn [with_threads wd_threads].
  exists (set_nth ts (t - j) (mk_thread 0 t TEnded)). rewrite X, Y. split; [|split].
  - rewrite T. unfold set_nth. rewrite app_length, gone_length, N.
    rewrite (proj2 (Nat.ltb_lt t _)) by lia. rewrite (proj2 (Nat.ltb_lt (t - j) _)) by lia.
    rewrite firstn_app, skipn_app, gone_length. rewrite firstn_all2 by (rewrite gone_length; exact K).
    rewrite skipn_all2 by (rewrite gone_length; lia). rewrite <- app_assoc. cbn [app]. replace (S t - j)%nat with (S (t - j)) by lia. reflexivity.
  - replace t with (j + (t - j))%nat at 2 by lia. apply alive_set; [exact AL|discriminate|lia].
  - rewrite set_nth_length. exact N.
Qed.

(* the step of monotone_free *)
Lemma nth_at {A} (p : list A) x r n : length p = n -> nth_error (p ++ x :: r) n = Some x.
Proof. intros <-. apply nth_mid. Qed.
Lemma set_at {A} (p : list A) x r y n : length p = n -> set_nth (p ++ x :: r) n y = p ++ y :: r.
Proof. intros <-. apply set_nth_mid. Qed.
Lemma skipn_cons {A} (l : list A) j : (j < length l)%nat -> exists x, nth_error l j = Some x /\ skipn j l = x :: skipn (S j) l /\ firstn (S j) l = firstn j l ++ [x].
Proof.
  revert j. induction l as [|y l IH]; intros j L; [cbn in L; lia|]. destruct j as [|j].
  - exists y. repeat split.
  - destruct (IH j) as [x [XA [XB XC]]]; [cbn in L; lia|]. exists x. split; [exact XA|]. split; [exact XB|].
    change (firstn (S (S j)) (y :: l)) with (y :: firstn (S j) l). rewrite XC. reflexivity.
Qed.
Lemma go_joins w fs j : opened w fs j -> wd_caller w = Joining j -> (j < length fs)%nat ->
  exists th, nth_error (wd_threads w) j = Some th /\ t_array th = 0%nat /\ t_slot th = j /\
    ((t_state th = TRuns /\ go w = Ok w) \/
     (t_state th = TEnded /\ exists w', go w = Ok w' /\ opened w' fs (S j) /\ wd_caller w' = Joining (S j) /\
        wd_shutdown w' = wd_shutdown w /\ wd_cursors w' = wd_cursors w)).
Proof.
  intros O Q L. destruct O as [W C A [ts [T [AL N]]] J H].
  destruct ts as [|th ts]; [cbn in N; lia|]. exists th. destruct AL as [X [Y [Z AL]]].
  assert (E : nth_error (wd_threads w) j = Some th) by (rewrite T; apply nth_at; apply gone_length).
  split; [exact E|]. split; [exact X|]. split; [exact Y|].
  destruct (skipn_cons fs j L) as [f [F1 [F2 F3]]].
  unfold go. rewrite Q, C, (proj2 (Z.ltb_lt _ _)) by lia. rewrite W, A. cbn [nth_error]. rewrite F2. cbn [number].
  assert (LB : length (blank (firstn j fs)) = j) by (unfold blank; rewrite map_length, firstn_length; lia).
  assert (E2 : nth_error (blank (firstn j fs) ++ Some (mk_worker f (Some j)) :: number (S j) (skipn (S j) fs)) j = Some (Some (mk_worker f (Some j)))).
  { exact (nth_at _ _ _ j LB). }
  rewrite E2. cbn [w_thread]. rewrite E.
  destruct (t_state th) eqn:S1; [left; split; reflexivity|right|exfalso; apply Z; reflexivity].
  split; [reflexivity|]. eexists. split; [reflexivity|]. split; [|repeat split].
  assert (E3 : set_nth (blank (firstn j fs) ++ Some (mk_worker f (Some j)) :: number (S j) (skipn (S j) fs)) j (Some (mk_worker f None)) =
    blank (firstn (S j) fs) ++ number (S j) (skipn (S j) fs)).
  { rewrite (set_at _ _ _ _ j LB). rewrite F3. unfold blank. rewrite map_app, <- app_assoc. reflexivity. }
  constructor; cbn [wd_workers wd_count wd_arrays wd_threads wd_handle w_filter]; auto.
  - rewrite E3. reflexivity.
  - exists ts. rewrite T, X, Y. split; [|split; [exact AL|cbn in N; lia]].
    rewrite gone_S, <- app_assoc. cbn [app]. apply set_at. apply gone_length.
Qed.
Lemma go_frees w fs : opened w fs (length fs) -> wd_caller w = Joining (length fs) ->
  exists w', go w = Ok w' /\ done w' /\ wd_caller w' = Closing /\ wd_handle w' = true /\ wd_shutdown w' = wd_shutdown w /\ wd_cursors w' = wd_cursors w.
Proof.
  intros [W C A [ts [T [AL N]]] J H] Q. unfold go. rewrite Q, C, (proj2 (Z.ltb_ge _ _)) by lia. rewrite W, A. cbn [nth_error].
  eexists. split; [reflexivity|]. split; [|repeat split; exact H]. split; [reflexivity|]. split; [reflexivity|].
  rewrite Nat.sub_diag in N. destruct ts; [|discriminate]. unfold no_thread_left. cbn [wd_threads wd_arrays]. split.
  - rewrite T, app_nil_r. apply Forall_forall. intros t I. unfold gone in I. apply in_map_iff in I. destruct I as [i [<- _]]. reflexivity.
  - constructor; [reflexivity|constructor].
Qed.

(* nothing runs *)
Lemma quiet_thread w t th : no_thread_left w -> nth_error (wd_threads w) t = Some th -> t_state th = TJoined.
Proof. intros [A _] E. exact (proj1 (Forall_forall _ _) A th (nth_error_In _ _ E)). Qed.

Lemma thread_step p w t (ends : bool) : inv p w ->
  exists w', step w (if ends then Ends t else Works t) = Ok w' /\ inv p w' /\ wd_caller w' = wd_caller w.
Proof.
  intros I.
  assert (K : (exists w', step w (if ends then Ends t else Works t) = Ok w' /\ w' = w) \/
    exists fs j th, opened w fs j /\ nth_error (wd_threads w) t = Some th /\ t_state th = TRuns).
  { destruct (nth_error (wd_threads w) t) as [th|] eqn:E.
    2:{ left. exists w. split; [|reflexivity]. destruct ends; cbn [step]; rewrite E; reflexivity. }
    destruct (t_state th) eqn:S1.
    2,3: left; exists w; split; [|reflexivity]; destruct ends; cbn [step]; rewrite E, S1; reflexivity.
    right. destruct I as [_ [_ I]].
    assert (N : no_thread_left w -> False) by (intros N; rewrite (quiet_thread w t th N E) in S1; discriminate).
    assert (N2 : fresh w -> False) by (intros F; apply N; exact (proj2 (proj2 (fresh_done w F)))).
    destruct (wd_caller w) as [|j|].
    - destruct (wd_handle w); [|exfalso; apply N; exact (proj2 (proj2 (proj2 I)))].
      destruct I as [_ [[F _]|[_ [fs O]]]]; [exfalso; exact (N2 F)|exists fs, 0%nat, th; auto].
    - destruct I as [_ [_ [[_ F]|[fs O]]]]; [exfalso; exact (N2 F)|exists fs, j, th; auto].
    - exfalso. apply N. exact (proj2 (proj2 (proj2 (proj2 I)))). }
  destruct K as [[w' [E ->]]|[fs [j [th [O [E S1]]]]]]; [exists w; auto|].
  destruct (thread_of w fs j t th O E) as [_ [_ [_ [_ SE]]]]; [rewrite S1; discriminate|].
  destruct ends; cbn [step]; rewrite E, S1, SE; [|exists w; auto].
  destruct (wd_shutdown w) eqn:SH; [|exists w; auto]. eexists. split; [reflexivity|]. split; [|reflexivity].
  destruct I as [A [B C]]. split; [exact A|]. split; [exact B|]. cbn [with_threads wd_caller wd_handle].
  assert (NF : fresh w -> False) by (intros [F _]; rewrite (op_workers _ _ _ O) in F; discriminate).
  assert (ND : done w -> False) by (intros [F _]; rewrite (op_workers _ _ _ O) in F; discriminate).
  destruct (wd_caller w) as [|i|].
  - destruct (wd_handle w); [|exfalso; exact (ND (proj2 C))]. destruct C as [C [[F _]|[PO [gs G]]]]; [exfalso; exact (NF F)|].
    split; [exact C|]. right. split; [exact PO|]. exists gs. exact (ends_opened w gs 0 t th G E S1).
  - destruct C as [C [D [[_ F]|[gs G]]]]; [exfalso; exact (NF F)|]. split; [exact C|]. split; [exact D|]. right. exists gs. exact (ends_opened w gs i t th G E S1).
  - exfalso. exact (ND (proj2 (proj2 C))).
Qed.
Lemma go_step p w : inv p w -> exists w', go w = Ok w' /\ inv p w'.
Proof.
  intros I. assert (I' := I). destruct I' as [A [B C]]. destruct (wd_caller w) as [|j|] eqn:Q.
  - exists w. split; [unfold go; rewrite Q; reflexivity|exact I].
  - destruct C as [P [H [[-> F]|[fs O]]]].
    + destruct F as [F1 [F2 [F3 F4]]]. unfold go. rewrite Q, F2, F1. cbn [Z.of_nat Z.ltb Z.compare].
      eexists. split; [reflexivity|]. split; [exact A|]. split; [exact B|]. cbn [wd_caller wd_handle]. split; [exact P|]. split; [exact H|].
      split; [reflexivity|]. split; [reflexivity|]. unfold no_thread_left. cbn [wd_threads wd_arrays]. rewrite F3, F4. split; constructor.
    + destruct (Nat.eq_dec j (length fs)) as [->|N].
      * destruct (go_frees w fs O Q) as [w' [E [D [Q' [H' [S1 S2]]]]]]. exists w'. split; [exact E|]. split; [unfold knows; rewrite S2; exact A|].
        split; [rewrite S1; exact B|]. rewrite Q'. auto.
      * destruct (go_joins w fs j O Q) as [th [E [X [Y [[S1 G]|[S1 [w' [G [O' [Q' [S2 S3]]]]]]]]]]].
        { assert (L := op_j _ _ _ O). lia. }
        -- exists w. auto.
        -- exists w'. split; [exact G|]. split; [unfold knows; rewrite S3; exact A|]. split; [rewrite S2; exact B|]. rewrite Q'.
           split; [exact P|]. split; [exact (op_handle _ _ _ O')|]. right. exists fs. exact O'.
  - destruct C as [P [H D]]. unfold go. rewrite Q. eexists. split; [reflexivity|]. split; [exact A|]. split; [exact B|]. cbn [wd_caller wd_handle]. auto.
Qed.

Lemma running_alive : forall n i, alive i (running 0 i n).
Proof.
  induction n as [|n IH]; intros i; [exact Logic.I|]. unfold running. cbn [seq map alive t_array t_slot t_state].
  split; [reflexivity|]. split; [reflexivity|]. split; [discriminate|]. exact (IH (S i)).
Qed.

(* every call of a careful program *)
Lemma inv_step p w l : inv p w -> allowed p l -> exists w', step w l = Ok w' /\ inv (next p l) w'.
Proof.
  intros I A. destruct l as [k u o| | |h|c h|c|t|t].
  - (* Open *)
    destruct o as [| |answers]; [|destruct A|].
    + cbn [allowed] in A. cbn [next]. destruct I as [K [B C]]. exists w. split; [|split; [exact K|split; [exact B|exact C]]].
      cbn [step]. destruct (wd_caller w); try reflexivity. destruct (wd_handle w); [reflexivity|]. destruct C as [C _]. rewrite A in C. discriminate.
    + destruct A as [A1 [A2 [A3 A4]]]. cbn [next]. destruct I as [K [B C]]. cbn [step].
      destruct (wd_caller w) as [|j|] eqn:Q; [|destruct C as [C _]; rewrite A1 in C; discriminate..].
      destruct (wd_handle w) eqn:H; [|destruct C as [C _]; rewrite A1 in C; discriminate]. cbn [negb].
      rewrite (start_granted w k u answers A3 A4). cbn [bind]. eexists. split; [reflexivity|].
      split; [exact K|]. split; [cbn [p_freed]; intros F; rewrite A1 in F; discriminate|].
      unfold opened_with. cbn [wd_caller wd_handle p_freed p_opened]. rewrite Q, H. split; [exact A1|]. right. split; [reflexivity|].
      destruct C as [_ [[[F1 [F2 [F3 F4]]] _]|[PO _]]]; [|rewrite A2 in PO; discriminate].
      exists (asked k u). rewrite F3, F4. cbn [length app]. constructor; cbn [wd_workers wd_count wd_arrays wd_threads wd_handle]; try reflexivity.
      -- cbn [firstn skipn blank map app]. rewrite firstn_all, skipn_all. cbn [blank map]. rewrite app_nil_r. reflexivity.
      -- exists (running 0 0 (length (asked k u))). split; [reflexivity|]. split; [|unfold running; rewrite map_length, seq_length; lia].
         apply running_alive.
      -- lia.
  - (* Free *)
    destruct A as [A1 A2]. destruct I as [K [B C]]. cbn [step].
    destruct (wd_caller w) as [|j|] eqn:Q; [|destruct C as [C _]; rewrite A1 in C; discriminate..].
    destruct (wd_handle w) eqn:H; [|destruct C as [C _]; rewrite A1 in C; discriminate]. cbn [negb].
    eexists. split; [reflexivity|]. split; [exact K|]. split; [intros _; split; [reflexivity|exact A2]|].
    cbn [wd_caller wd_handle next p_freed]. split; [reflexivity|]. split; [reflexivity|].
    destruct C as [_ [[F _]|[_ [fs O]]]]; [left; split; [reflexivity|exact F]|right; exists fs].
    destruct O as [O1 O2 O3 O4 O5 O6]. constructor; auto.
  - (* Go *) exact (go_step p w I).
  - (* Cursor *)
    destruct I as [K [B C]]. cbn [allowed] in A. cbn [step].
    destruct (wd_caller w) as [|j|] eqn:Q; [|destruct C as [C _]; rewrite A in C; discriminate..].
    destruct (wd_handle w) eqn:H; [|destruct C as [C _]; rewrite A in C; discriminate]. cbn [negb].
    eexists. split; [reflexivity|]. split; [|split].
    + unfold knows. cbn [next p_cursors with_cursors wd_cursors]. apply Forall2_app; [exact K|]. constructor; [|constructor]. intros _. split; reflexivity.
    + cbn [next p_freed]. intros F. rewrite A in F. discriminate.
    + cbn [with_cursors wd_caller wd_handle next p_freed p_opened]. rewrite Q, H. split; [exact A|].
      destruct C as [_ [[F PO]|[PO [fs O]]]]; [left; split; [exact F|exact PO]|right; split; [exact PO|exists fs]].
      destruct O as [O1 O2 O3 O4 O5 O6]. constructor; auto.
  - (* Use *)
    destruct A as [hh A]. destruct I as [K [B C]]. destruct (knows_nth p w c hh K A) as [x [E [M S1]]]. cbn [step next]. rewrite A.
    destruct hh.
    + assert (PF : p_freed p = false).
      { destruct (p_freed p) eqn:PF; [|reflexivity]. destruct (B eq_refl) as [_ G]. assert (G1 := proj1 (Forall_forall _ _) G _ (nth_error_In _ _ A) eq_refl). discriminate G1. }
      destruct (wd_caller w) as [|j|] eqn:Q; [|destruct C as [C _]; rewrite PF in C; discriminate..].
      destruct (wd_handle w) eqn:H; [|destruct C as [C _]; rewrite PF in C; discriminate].
      rewrite E, M, S1. eexists. split; [reflexivity|]. split; [|split].
      * unfold knows. cbn [p_cursors with_cursors wd_cursors]. apply knows_set; [exact K|]. intros _. split; reflexivity.
      * cbn [p_freed]. intros F. rewrite PF in F. discriminate.
      * cbn [with_cursors wd_caller wd_handle p_freed p_opened]. rewrite Q, H. split; [exact PF|].
        destruct C as [_ [[F PO]|[PO [fs O]]]]; [left; split; [exact F|exact PO]|right; split; [exact PO|exists fs]].
        destruct O as [O1 O2 O3 O4 O5 O6]. constructor; auto.
    + exists w. split; [|split; [exact K|split; [exact B|exact C]]]. destruct (wd_caller w); try reflexivity. rewrite E, M, S1. reflexivity.
  - (* FreeCursor *)
    destruct A as [hh A]. destruct I as [K [B C]]. destruct (knows_nth p w c hh K A) as [x [E [M S1]]]. cbn [step next].
    assert (B' : p_freed p = true -> wd_shutdown w = true /\ Forall (fun c0 : bool * bool => fst c0 = true -> snd c0 = false) (set_nth (p_cursors p) c (false, false))).
    { intros F. destruct (B F) as [B1 B2]. split; [exact B1|]. apply set_Forall; [exact B2|discriminate]. }
    destruct (wd_caller w) as [|j|] eqn:Q.
    + assert (NU : c_holds x && negb (wd_handle w) = false).
      { destruct (wd_handle w) eqn:H; [apply andb_false_r|]. destruct C as [C _]. destruct (B C) as [_ G].
        assert (G1 := proj1 (Forall_forall _ _) G _ (nth_error_In _ _ A) eq_refl). cbn in G1. rewrite S1, G1. reflexivity. }
      rewrite E, M, NU. eexists. split; [reflexivity|]. split; [|split; [exact B'|]].
      * unfold knows. cbn [p_cursors with_cursors wd_cursors]. apply knows_set; [exact K|]. discriminate.
      * cbn [with_cursors wd_caller wd_handle p_freed p_opened]. rewrite Q. destruct (wd_handle w) eqn:H.
        -- destruct C as [C1 [[F PO]|[PO [fs O]]]]; (split; [exact C1|]); [left; split; [exact F|exact PO]|right; split; [exact PO|exists fs]].
           destruct O as [O1 O2 O3 O4 O5 O6]. constructor; auto.
        -- exact C.
    + exists w. split; [reflexivity|]. split; [|split; [exact B'|]].
      * unfold knows. cbn [p_cursors]. apply knows_left; [exact K|]. intros y. discriminate.
      * rewrite Q. exact C.
    + exists w. split; [reflexivity|]. split; [|split; [exact B'|]].
      * unfold knows. cbn [p_cursors]. apply knows_left; [exact K|]. intros y. discriminate.
      * rewrite Q. exact C.
  - destruct (thread_step p w t false I) as [w' [E [J _]]]. exists w'. auto.
  - destruct (thread_step p w t true I) as [w' [E [J _]]]. exists w'. auto.
Qed.
Lemma inv_run : forall ls p w, inv p w -> careful p ls -> exists w', run w ls = Ok w' /\ inv (fold_left next ls p) w'.
Proof.
  induction ls as [|l ls IH]; intros p w I C; [exists w; auto|]. destruct C as [A C]. destruct (inv_step p w l I A) as [w1 [E I1]].
  destruct (IH (next p l) w1 I1 C) as [w' [R I']]. exists w'. cbn [run fold_left]. rewrite E. auto.
Qed.

Lemma safe ls : careful plan0 ls -> exists w, run world0 ls = Ok w.
Proof. intros C. destruct (inv_run ls plan0 world0 inv0 C) as [w [E _]]. exists w. exact E. Qed.
Lemma ended ls w : careful plan0 ls -> run world0 ls = Ok w -> wd_handle w = false -> no_thread_left w.
Proof.
  intros C E H. destruct (inv_run ls plan0 world0 inv0 C) as [w' [E' [_ [_ I]]]]. rewrite E in E'. injection E' as <-.
  rewrite H in I. destruct (wd_caller w) as [|j|]; [exact (proj2 (proj2 (proj2 I)))|destruct I as [_ [I _]]; discriminate..].
Qed.
Lemma joins_end p : forall n w fs j, inv p w -> opened w fs j -> wd_caller w = Joining j -> (length fs - j = n)%nat ->
  exists more w', Forall free_step more /\ run w more = Ok w' /\ wd_handle w' = false.
Proof.
  induction n as [|n IH]; intros w fs j I O Q L.
  - assert (j = length fs) by (assert (X := op_j _ _ _ O); lia). subst j. destruct (go_frees w fs O Q) as [w1 [E [D [Q1 [H1 _]]]]].
    exists [Go; Go]. assert (G : exists w2, go w1 = Ok w2 /\ wd_handle w2 = false) by (unfold go; rewrite Q1; eexists; split; reflexivity).
    destruct G as [w2 [E2 H2]]. exists w2. split; [repeat constructor|]. cbn [run step]. rewrite E. cbn [bind]. rewrite E2. auto.
  - assert (LT : (j < length fs)%nat) by lia.
    destruct (go_joins w fs j O Q LT) as [th [E [X [Y [[S1 G]|[S1 [w1 [G [O1 [Q1 _]]]]]]]]]].
    + destruct I as [K [B C]]. assert (SH : wd_shutdown w = true) by (rewrite Q in C; exact (proj1 (B (proj1 C)))).
      assert (SE : sees w th = true) by (destruct (thread_of w fs j j th O E) as [_ [_ [_ [_ Z]]]]; [rewrite S1; discriminate|exact Z]).
      assert (O1 := ends_opened w fs j j th O E S1).
      set (w1 := with_threads w (set_nth (wd_threads w) j (mk_thread (t_array th) (t_slot th) TEnded))) in *.
      assert (E1 : step w (Ends j) = Ok w1) by (cbn [step]; rewrite E, S1, SE, SH; reflexivity).
      destruct (go_joins w1 fs j O1 Q LT) as [th1 [F1 [_ [_ [[S2 _]|[S2 [w2 [G2 [O2 [Q2 _]]]]]]]]]].
      { exfalso. cbn [w1 with_threads wd_threads] in F1. rewrite nth_set, Nat.eqb_refl in F1.
        rewrite (proj2 (Nat.ltb_lt _ _)) in F1 by (apply nth_error_Some; rewrite E; discriminate). injection F1 as <-. discriminate S2. }
      assert (I2 : inv p w2).
      { destruct (inv_step p w (Ends j)) as [x [X1 J1]]; [split; [exact K|split; [exact B|exact C]]|exact Logic.I|]. rewrite E1 in X1. injection X1 as <-.
        destruct (go_step p w1 J1) as [y [Y1 J2]]. rewrite G2 in Y1. injection Y1 as <-. exact J2. }
      destruct (IH w2 fs (S j) I2 O2 Q2) as [more [w' [F [R H]]]]; [lia|].
      exists (Ends j :: Go :: more), w'. split; [repeat constructor; exact F|]. cbn [run]. rewrite E1. cbn [bind step]. rewrite G2. auto.
    + assert (I2 : inv p w1) by (destruct (go_step p w I) as [y [Y1 J2]]; rewrite G in Y1; injection Y1 as <-; exact J2).
      destruct (IH w1 fs (S j) I2 O1 Q1) as [more [w' [F [R H]]]]; [lia|].
      exists (Go :: more), w'. split; [repeat constructor; exact F|]. cbn [run step]. rewrite G. auto.
Qed.
Lemma returns ls w : careful plan0 ls -> p_freed (known ls) = true -> run world0 ls = Ok w ->
  exists more w', Forall free_step more /\ run w more = Ok w' /\ wd_handle w' = false.
Proof.
  intros C F E. destruct (inv_run ls plan0 world0 inv0 C) as [w' [E' I]]. rewrite E in E'. injection E' as <-. fold (known ls) in I.
  assert (I' := I). destruct I' as [_ [_ J]]. destruct (wd_caller w) as [|j|] eqn:Q.
  - destruct (wd_handle w) eqn:H; [destruct J as [J _]; rewrite F in J; discriminate|]. exists [], w. repeat split; [constructor|exact H].
  - destruct J as [_ [H [[-> [F1 [F2 [F3 F4]]]]|[fs O]]]]; [|exact (joins_end (known ls) _ w fs j I O Q eq_refl)].
    exists [Go; Go]. eexists. split; [repeat constructor|]. cbn [run step]. unfold go at 1. rewrite Q, F2, F1. cbn [Z.of_nat Z.ltb Z.compare bind].
    split; [reflexivity|reflexivity].
  - exists [Go]. eexists. split; [repeat constructor|]. cbn [run step]. unfold go. rewrite Q. split; reflexivity.
Qed.
