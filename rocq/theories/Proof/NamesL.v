(* C80: names of files. *)
From Coq Require Import ZArith NArith Arith List Bool String Lia ZifyBool ZifyN ZifyNat.
Import ListNotations.
From Verif Require Import Model.Base Model.Json Model.Lex Model.Uuid Model.Wal Model.Names Spec.Units Spec.UuidText Spec.Names Proof.UuidL.
Local Open Scope N_scope.

Lemma number_snoc ds c : number (ds ++ [c]) = number ds * 10 + (c - 48).
Proof. unfold number. rewrite fold_left_app. reflexivity. Qed.

Lemma digits_spec k : forall n, n < 10 ^ N.of_nat k ->
  List.length (digits k n) = k /\ Forall digit (digits k n) /\ number (digits k n) = n.
Proof.
  induction k as [|k IH]; intros n H; cbn [digits].
  - change (10 ^ N.of_nat 0) with 1 in H. repeat split; [constructor|]. unfold number. cbn [fold_left]. lia.
  - rewrite Nat2N.inj_succ, N.pow_succ_r' in H.
    pose proof (N.div_mod n 10 ltac:(lia)) as E. pose proof (N.mod_lt n 10 ltac:(lia)) as M.
    assert (n / 10 < 10 ^ N.of_nat k) by (apply N.div_lt_upper_bound; lia).
    destruct (IH (n / 10) H0) as (A & B & C). split; [|split].
    + rewrite app_length, A. cbn [List.length]. lia.
    + apply Forall_app. split; [exact B|]. constructor; [|constructor]. unfold digit. lia.
    + rewrite number_snoc, C. lia.
Qed.

Lemma dec20_spec n : n < 2 ^ 64 -> List.length (dec20 n) = 20%nat /\ Forall digit (dec20 n) /\ number (dec20 n) = n.
Proof. intros H. apply digits_spec. change (10 ^ N.of_nat 20) with 100000000000000000000. change (2 ^ 64) with 18446744073709551616 in H. lia. Qed.

Lemma suffix_word s : suffix s = chars (word s).
Proof. destruct s; reflexivity. Qed.

Lemma suffix_ends s : suffix s = [] \/ exists t, suffix s = 46 :: t.
Proof. destruct s; [left; reflexivity|right; eexists; reflexivity..]. Qed.

Lemma before_dot_app ds rest : Forall digit ds -> rest = [] \/ (exists t, rest = 46 :: t) -> forall v,
  before_dot v (ds ++ rest) = Some (fold_left (fun v b => w64 (v * 10 + (b - 48))) ds v, rest).
Proof.
  intros Hd Hr. induction Hd as [|c ds Hc Hd IH]; intros v; cbn [app fold_left].
  - destruct Hr as [->|[t ->]]; [reflexivity|]. cbn [before_dot]. reflexivity.
  - unfold digit in Hc. cbn [before_dot]. rewrite (proj2 (N.eqb_neq _ _)) by lia.
    assert (I : isdigit c = true) by (unfold isdigit; lia). rewrite I. apply IH.
Qed.

Lemma fold_wrap ds : forall v w, v = w64 w ->
  fold_left (fun v b => w64 (v * 10 + (b - 48))) ds v = w64 (fold_left (fun v b => v * 10 + (b - 48)) ds w).
Proof.
  induction ds as [|c ds IH]; intros v w E; [exact E|]. cbn [fold_left]. apply IH. subst v. unfold w64.
  assert (T : two64 <> 0) by discriminate.
  rewrite (N.add_mod (w mod two64 * 10)), (N.mul_mod (w mod two64)), N.mod_mod by exact T. rewrite <- N.mul_mod by exact T. rewrite <- N.add_mod by exact T. reflexivity.
Qed.

Lemma before_dot_number ds rest : Forall digit ds -> rest = [] \/ (exists t, rest = 46 :: t) ->
  before_dot 0 (ds ++ rest) = Some (number ds mod 2 ^ 64, rest).
Proof.
  intros Hd Hr. rewrite before_dot_app by assumption. rewrite (fold_wrap ds 0 0) by reflexivity. reflexivity.
Qed.

Lemma before_dot_inv l : forall v r, before_dot v l = Some r ->
  exists ds, Forall digit ds /\ l = ds ++ snd r /\ (snd r = [] \/ exists t, snd r = 46 :: t).
Proof.
  induction l as [|c l IH]; intros v r H; cbn [before_dot] in H.
  - injection H as <-. exists []. repeat split; [constructor|left; reflexivity].
  - destruct (N.eqb_spec c 46) as [->|Hc].
    + injection H as <-. exists []. repeat split; [constructor|right; eexists; reflexivity].
    + destruct (isdigit c) eqn:I; [|discriminate]. destruct (IH _ _ H) as (ds & A & B & C).
      exists (c :: ds). repeat split; [|cbn [app]; f_equal; exact B|exact C]. constructor; [|exact A]. unfold digit, isdigit in *. lia.
Qed.

Lemma same_iff a b : same a b = true <-> a = b.
Proof. unfold same. destruct (list_eq_dec N.eq_dec a b); split; congruence. Qed.

Lemma taken_iff name min s : engine_recover_id name = Some (min, s) <-> taken_for min s name.
Proof.
  split.
  - unfold engine_recover_id. destruct (before_dot 0 name) as [[id rest]|] eqn:B; [|discriminate].
    destruct (before_dot_inv _ _ _ B) as (ds & D & E & F). cbn [snd] in *. subst name.
    rewrite (before_dot_number _ _ D F) in B. injection B as B. intros H.
    assert (S : id = min /\ rest = suffix s).
    { destruct (same rest []) eqn:S1; [apply same_iff in S1; injection H as -> <-; auto|].
      destruct (same rest (suffix INCOMPLETE)) eqn:S2; [apply same_iff in S2; injection H as -> <-; auto|].
      destruct (same rest (suffix COMPLETE)) eqn:S3; [apply same_iff in S3; injection H as -> <-; auto|].
      destruct (same rest (suffix CLOUD)) eqn:S4; [apply same_iff in S4; injection H as -> <-; auto|].
      destruct (same rest (suffix CLOUD_INCOMPLETE)) eqn:S5; [apply same_iff in S5; injection H as -> <-; auto|discriminate]. }
    destruct S as [<- ->]. exists ds. rewrite <- suffix_word. auto.
  - intros (ds & D & N & E). subst name. rewrite <- suffix_word. unfold engine_recover_id.
    rewrite (before_dot_number _ _ D (suffix_ends s)), N. destruct s; reflexivity.
Qed.

Lemma own_taken min s : min < 2 ^ 64 -> own_name min (word s) (id_name min s) /\ engine_recover_id (id_name min s) = Some (min, s).
Proof.
  intros H. destruct (dec20_spec min H) as (A & B & C). split.
  - exists (dec20 min). unfold id_name. rewrite suffix_word. auto.
  - apply taken_iff. exists (dec20 min). unfold id_name. rewrite suffix_word, C, N.mod_small by assumption. auto.
Qed.

(* directories *)

Lemma lookup_set min s m : forall parts,
  lookup m (part_set parts min s) = if m =? min then Some (N.setbit (match lookup min parts with Some st => st | None => 0 end) (bit s)) else lookup m parts.
Proof.
  induction parts as [|[k st] parts IH]; cbn [part_set lookup].
  - destruct (N.eqb_spec min m) as [->|N]; [rewrite N.eqb_refl; reflexivity|]. rewrite (proj2 (N.eqb_neq m min)) by congruence. reflexivity.
  - destruct (N.eqb_spec k min) as [->|N]; cbn [lookup].
    + destruct (N.eqb_spec min m) as [->|N']; [rewrite N.eqb_refl; reflexivity|]. rewrite (proj2 (N.eqb_neq m min)) by congruence. reflexivity.
    + rewrite IH. destruct (N.eqb_spec k m) as [->|N']; [rewrite (proj2 (N.eqb_neq m min)) by congruence; reflexivity|reflexivity].
Qed.

Lemma bit_inj a b : bit a = bit b -> a = b.
Proof. destruct a, b; cbn; congruence. Qed.

Lemma set_once min s parts : NoDup (map fst parts) -> NoDup (map fst (part_set parts min s)).
Proof.
  assert (I : forall parts x, In x (map fst (part_set parts min s)) -> x = min \/ In x (map fst parts)).
  { clear parts. induction parts as [|[k st] parts IH]; intros x H; cbn [part_set map fst] in *.
    - destruct H as [<-|[]]. left. reflexivity.
    - destruct (N.eqb_spec k min); cbn [map fst In] in *; [tauto|]. destruct H as [<-|H]; [tauto|]. destruct (IH _ H); tauto. }
  induction parts as [|[k st] parts IH]; intros H; cbn [part_set map fst] in *; [repeat constructor; intros []|].
  inversion H as [|x y A B]; subst. destruct (N.eqb_spec k min); cbn [map fst]; constructor; auto.
  intros C. destruct (I _ _ C); [congruence|contradiction].
Qed.

Definition mine (name : list byte) : Prop := exists m s, m < 2 ^ 64 /\ name = id_name m s.
Definition found (parts : list (N * N)) (m : N) (s : state) : Prop := exists st, lookup m parts = Some st /\ N.testbit st (bit s) = true.

Lemma hidden_iff name : hidden name = true <-> exists t, name = 46 :: t.
Proof.
  unfold hidden. split.
  - destruct name as [|b name]; [discriminate|]. intros H. exists name. f_equal.
    destruct b as [|p]; [discriminate|]. destruct (Pos.eq_dec p 46) as [->|N]; [reflexivity|].
    exfalso. repeat (destruct p as [p|p|]; try discriminate H). apply N. reflexivity.
  - intros [t ->]. reflexivity.
Qed.

Lemma digits_head k : forall n, exists c t, digits (S k) n = c :: t /\ 48 <= c.
Proof.
  induction k as [|k IH]; intros n.
  - exists (48 + n mod 10), []. split; [reflexivity|lia].
  - destruct (IH (n / 10)) as (c & t & E & H). exists c, (t ++ [48 + n mod 10]). split; [|exact H].
    change (digits (S (S k)) n) with (digits (S k) (n / 10) ++ [48 + n mod 10]). rewrite E. reflexivity.
Qed.
Lemma id_name_shown m s : hidden (id_name m s) = false.
Proof.
  destruct (hidden (id_name m s)) eqn:H; [|reflexivity]. apply hidden_iff in H as [t H]. exfalso.
  unfold id_name, dec20 in H. destruct (digits_head 19 m) as (c & l & E & C). rewrite E in H. injection H as H _. lia.
Qed.

Lemma foreign_step parts name : foreign name -> recover_entry parts name = parts.
Proof.
  unfold recover_entry. intros [H|H]; [apply hidden_iff in H; rewrite H; reflexivity|].
  destruct (hidden name); [reflexivity|]. destruct (engine_recover_id name) as [[m s]|] eqn:E; [|reflexivity].
  apply taken_iff in E. destruct (H _ _ E).
Qed.

Lemma mine_step parts m s : m < 2 ^ 64 -> recover_entry parts (id_name m s) = part_set parts m s.
Proof. intros H. unfold recover_entry. rewrite id_name_shown. rewrite (proj2 (own_taken m s H)). reflexivity. Qed.

Lemma recovered entries : Forall (fun name => mine name \/ foreign name) entries -> forall parts,
  (forall m, match lookup m parts with Some st => st <> 0 | None => True end) -> NoDup (map fst parts) ->
  let r := fold_left recover_entry entries parts in
  (forall m, match lookup m r with Some st => st <> 0 | None => True end) /\ NoDup (map fst r) /\
  forall m s, m < 2 ^ 64 -> (found r m s <-> In (id_name m s) entries \/ found parts m s).
Proof.
  intros H. induction H as [|name entries Hn Hs IH]; intros parts P Q r; cbn [fold_left] in r.
  - subst r. repeat split; auto. intros [[]|F]. exact F.
  - destruct Hn as [(k & t & Hk & ->)|F].
    + subst r. rewrite (mine_step _ _ _ Hk).
      assert (P' : forall m, match lookup m (part_set parts k t) with Some st => st <> 0 | None => True end).
      { intros m. rewrite lookup_set. destruct (m =? k); [|apply P]. intros E.
        assert (T : N.testbit (N.setbit match lookup k parts with Some st => st | None => 0 end (bit t)) (bit t) = true) by apply N.setbit_eq.
        rewrite E in T. destruct t; discriminate. }
      destruct (IH _ P' (set_once k t _ Q)) as (A & B & C). split; [exact A|]. split; [exact B|].
      intros m s Hm. rewrite (C m s Hm). cbn [In]. unfold found. rewrite lookup_set.
      destruct (N.eqb_spec m k) as [->|N].
      * split.
        -- intros [I|(st & E & T)]; [tauto|]. injection E as <-. rewrite N.setbit_iff in T. destruct T as [T|T].
           ++ apply bit_inj in T. subst t. left. left. reflexivity.
           ++ destruct (lookup k parts) as [st|]; [right; eauto|rewrite N.bits_0 in T; discriminate].
        -- intros [[I|I]|(st & E & T)]; [|tauto|].
           ++ right. eexists. split; [reflexivity|]. assert (E : Some (k, t) = Some (k, s)).
              { rewrite <- (proj2 (own_taken k t Hk)), <- (proj2 (own_taken k s Hk)). f_equal. exact I. }
              injection E as ->. apply N.setbit_eq.
           ++ right. eexists. split; [reflexivity|]. rewrite E, N.setbit_iff. right. exact T.
      * split; [tauto|]. intros [[I|I]|I]; [|tauto|tauto]. exfalso. apply N.
        assert (E : Some (k, t) = Some (m, s)).
        { rewrite <- (proj2 (own_taken k t Hk)), <- (proj2 (own_taken m s Hm)). f_equal. exact I. }
        injection E as -> _. reflexivity.
    + subst r. rewrite (foreign_step _ _ F). destruct (IH _ P Q) as (A & B & C). split; [exact A|]. split; [exact B|].
      intros m s Hm. rewrite (C m s Hm). cbn [In]. split; [tauto|]. intros [[->|I]|I]; [|tauto|tauto]. exfalso.
      destruct F as [F|F]; [apply hidden_iff in F; rewrite id_name_shown in F; discriminate|].
      exact (F m s (proj1 (taken_iff _ _ _) (proj2 (own_taken m s Hm)))).
Qed.

Theorem directory entries : Forall (fun name => (exists m s, m < 2 ^ 64 /\ name = id_name m s) \/ foreign name) entries ->
  let parts := engine_recover_storage entries in
  NoDup (map fst parts) /\
  forall m, m < 2 ^ 64 ->
    (lookup m parts = None <-> forall s, ~ In (id_name m s) entries) /\
    (forall st, lookup m parts = Some st -> forall s, N.testbit st (bit s) = true <-> In (id_name m s) entries).
Proof.
  intros H parts. pose proof (recovered entries H [] (fun m => I) (NoDup_nil _)) as R. cbv zeta in R.
  change (fold_left recover_entry entries []) with parts in R. destruct R as (A & B & C).
  split; [exact B|]. intros m Hm.
  assert (F0 : forall s, ~ found [] m s) by (intros s (st & E & _); discriminate).
  split.
  - split.
    + intros E s I. destruct (proj2 (C m s Hm) (or_introl I)) as (st & E' & _).  congruence.
    + intros N. specialize (A m). destruct (lookup m parts) as [st|] eqn:E; [|reflexivity]. exfalso.
      (* some bit is set, and it is one of the five: every partition comes from an entry *)
      assert (G : forall entries parts, (forall m st, lookup m parts = Some st -> exists s, N.testbit st (bit s) = true) ->
         forall m st, lookup m (fold_left recover_entry entries parts) = Some st -> exists s, N.testbit st (bit s) = true).
      { clear. induction entries as [|name entries IH]; intros parts P m st E; [exact (P m st E)|]. cbn [fold_left] in E. revert E. apply IH. clear m st IH.
        intros m st. unfold recover_entry. destruct (hidden name); [apply P|]. destruct (engine_recover_id name) as [[k t]|]; [|apply P].
        rewrite lookup_set. destruct (m =? k); [|apply P]. intros E. injection E as <-. exists t. apply N.setbit_eq. }
      destruct (G entries [] ltac:(discriminate) m st E) as (s & T). destruct (proj1 (C m s Hm)) as [I|I]; [exists st; auto|exact (N s I)|exact (F0 s I)].
  - intros st E s. split.
    + intros T. destruct (proj1 (C m s Hm)) as [I|I]; [exists st; auto|exact I|destruct (F0 s I)].
    + intros I. destruct (proj2 (C m s Hm) (or_introl I)) as (st' & E' & T).  congruence.
Qed.

(* the log *)

Lemma wal_id m : m < 2 ^ 64 - 1 -> forall ids, wal_recover_entry ids (wal_name m) = wal_id_add m ids.
Proof.
  intros H ids. assert (H' : m < 2 ^ 64) by lia. destruct (dec20_spec m H') as (A & B & C).
  assert (Hh : hidden (wal_name m) = false).
  { destruct (hidden (wal_name m)) eqn:X; [|reflexivity]. apply hidden_iff in X as [t X]. exfalso.
    unfold wal_name, dec20 in X. destruct (digits_head 19 m) as (c & l & E & Hc). rewrite E in X. injection X as X _. lia. }
  unfold wal_recover_entry. rewrite Hh. unfold wal_file_id_of, wal_name.
  rewrite before_dot_number by (auto; right; eexists; reflexivity). rewrite C, N.mod_small by assumption.
  destruct (N.ltb_spec m (2 ^ 63)).
  - rewrite (proj2 (Z.eqb_neq _ _)) by lia. f_equal. rewrite Z.mod_small by lia. lia.
  - rewrite (proj2 (Z.eqb_neq _ _)) by lia. f_equal. rewrite <- (Z.mod_unique (Z.of_N m - 2 ^ 64) (2 ^ 64) (-1) (Z.of_N m)) by lia. lia.
Qed.

Lemma wal_foreign name ids : (exists t, name = 46 :: t) \/ (forall ds r, Forall digit ds -> r = [] \/ (exists t, r = 46 :: t) -> name <> ds ++ r) ->
  wal_recover_entry ids name = ids.
Proof.
  unfold wal_recover_entry. intros [H|H]; [apply hidden_iff in H; rewrite H; reflexivity|]. destruct (hidden name); [reflexivity|].
  unfold wal_file_id_of. destruct (before_dot 0 name) as [[id rest]|] eqn:B; [|reflexivity].
  destruct (before_dot_inv _ _ _ B) as (ds & D & E & F). destruct (H _ _ D F E).
Qed.

Lemma wal_listing names ids : listing names ids -> forall l, fold_left wal_recover_entry names l = fold_left (fun l id => wal_id_add id l) ids l.
Proof.
  induction 1 as [|id names ids H L IH|t names ids L IH|name names ids H L IH]; intros l; cbn [fold_left]; [reflexivity|..].
  - rewrite (wal_id id H). apply IH.
  - rewrite wal_foreign by (left; eexists; reflexivity). apply IH.
  - rewrite wal_foreign by (right; exact H). apply IH.
Qed.

(* paths *)

Lemma cut_fits size text : (List.length text < size)%nat -> cut size text = text.
Proof. intros H. unfold cut. apply firstn_all2. lia. Qed.

Lemma app_tail_eq {A} (a b x y : list A) : a ++ x = b ++ y -> List.length x = List.length y -> a = b /\ x = y.
Proof.
  intros E L. assert (L2 : List.length a = List.length b) by (apply (f_equal (@List.length A)) in E; rewrite !app_length in E; lia).
  revert b L2 E. induction a as [|u a IH]; intros [|v b] L2 E; cbn [List.length] in L2; try discriminate; [auto|].
  cbn [app] in E. injection E as -> E. destruct (IH b) as [-> ->]; auto.
Qed.

Definition no_slash (l : list byte) : Prop := Forall (fun b => b <> 47) l.
Lemma after_slash (a b x y : list byte) : no_slash x -> no_slash y -> a ++ [47] ++ x = b ++ [47] ++ y -> a = b /\ x = y.
Proof.
  intros X Y E. assert (L : List.length x = List.length y).
  { revert b E. induction a as [|u a IH]; intros [|v b] E; cbn [app] in E.
    - injection E as ->. reflexivity.
    - injection E as _ E. subst x. unfold no_slash in X. rewrite Forall_app in X. destruct X as [_ X]. inversion X; congruence.
    - injection E as _ E. subst y. unfold no_slash in Y. rewrite Forall_app in Y. destruct Y as [_ Y]. inversion Y; congruence.
    - injection E as -> E. exact (IH b E). }
  assert (E2 : (a ++ [47]) ++ x = (b ++ [47]) ++ y) by (rewrite <- !app_assoc; exact E).
  destruct (app_tail_eq _ _ _ _ E2 L) as [A B]. split; [|exact B]. apply app_inv_tail in A. exact A.
Qed.

Lemma id_name_no_slash m s : m < 2 ^ 64 -> no_slash (id_name m s).
Proof.
  intros H. destruct (dec20_spec m H) as (_ & D & _). unfold id_name, no_slash. apply Forall_app. split.
  - eapply Forall_impl; [|exact D]. unfold digit. intros; lia.
  - destruct s; repeat (constructor; [discriminate|]); constructor.
Qed.
Lemma uuid_no_slash u : no_slash (uuid_to_string u).
Proof.
  destruct (proj1 (to_string_text u)) as (g1 & g2 & g3 & g4 & g5 & [_ H1] & [_ H2] & [_ H3] & [_ H4] & [_ H5] & ->).
  assert (G : forall g, Forall is_hex g -> no_slash g) by (intros g; apply Forall_impl; unfold is_hex; intros; lia).
  unfold no_slash. rewrite !Forall_app. repeat split; try (apply G; assumption); (constructor; [discriminate|constructor]).
Qed.
Lemma uuid_inj u v : u_a u < 2 ^ 64 -> u_b u < 2 ^ 64 -> u_a v < 2 ^ 64 -> u_b v < 2 ^ 64 -> uuid_to_string u = uuid_to_string v -> u = v.
Proof.
  intros A B C D E. pose proof (uuid_round u [] A B) as P. pose proof (uuid_round v [] C D) as Q. rewrite E in P. congruence.
Qed.

Definition place (directory spath : list byte) : list byte :=
  match spath with
  | [] => directory
  | b :: _ => if b =? 47 then spath else directory ++ [47] ++ spath
  end.
Lemma id_name_length m s : (List.length (id_name m s) <= 37)%nat.
Proof.
  unfold id_name, dec20. rewrite app_length. assert (L : forall k n, List.length (digits k n) = k).
  { induction k; intros n; cbn [digits]; [reflexivity|]. rewrite app_length, IHk. cbn [List.length]. lia. }
  rewrite L. destruct s; vm_compute; lia.
Qed.
Lemma path_whole directory spath u m s : (List.length directory + List.length spath <= 4000)%nat ->
  id_path directory spath u m s = (place directory spath ++ [47] ++ uuid_to_string u) ++ [47] ++ id_name m s.
Proof.
  intros H. pose proof (id_name_length m s) as L. pose proof (proj2 (to_string_text u)) as U.
  unfold id_path, source_pathfmt, place. rewrite (cut_fits 512) by lia.
  destruct spath as [|b spath]; [|destruct (b =? 47)]; (rewrite cut_fits; [repeat rewrite <- app_assoc; reflexivity|]);
    repeat (rewrite app_length; cbn [List.length] in *); rewrite ?U; cbn [List.length] in *; unfold PATH_MAX; lia.
Qed.

Theorem paths d1 p1 u1 m1 s1 d2 p2 u2 m2 s2 :
  (List.length d1 + List.length p1 <= 4000)%nat -> (List.length d2 + List.length p2 <= 4000)%nat ->
  u_a u1 < 2 ^ 64 -> u_b u1 < 2 ^ 64 -> u_a u2 < 2 ^ 64 -> u_b u2 < 2 ^ 64 -> m1 < 2 ^ 64 -> m2 < 2 ^ 64 ->
  id_path d1 p1 u1 m1 s1 = id_path d2 p2 u2 m2 s2 -> u1 = u2 /\ m1 = m2 /\ s1 = s2.
Proof.
  intros L1 L2 A1 B1 A2 B2 M1 M2 E. rewrite !path_whole in E by assumption.
  apply after_slash in E as [E1 E2]; [|apply id_name_no_slash; assumption..].
  apply after_slash in E1 as [_ E1]; [|apply uuid_no_slash..]. apply uuid_inj in E1; auto.
  assert (E : Some (m1, s1) = Some (m2, s2)).
  { rewrite <- (proj2 (own_taken m1 s1 M1)), <- (proj2 (own_taken m2 s2 M2)). f_equal. exact E2. }
  injection E as -> ->. auto.
Qed.

Theorem wal_paths d m1 m2 : (List.length d <= 4000)%nat -> m1 < 2 ^ 64 -> m2 < 2 ^ 64 -> wal_path d m1 = wal_path d m2 -> m1 = m2.
Proof.
  intros L M1 M2. destruct (dec20_spec m1 M1) as (A1 & _ & C1). destruct (dec20_spec m2 M2) as (A2 & _ & C2).
  unfold wal_path, wal_name. rewrite !cut_fits by (rewrite !app_length, ?A1, ?A2; cbn [List.length chars]; unfold PATH_MAX; vm_compute (List.length (chars _)); lia).
  intros E. apply app_inv_head in E. apply app_inv_head in E. apply app_inv_tail in E. congruence.
Qed.

(* what is not its own *)
Theorem alias : exists a b c : list byte, a <> b /\ b <> c /\ a <> c /\
  engine_recover_id a = Some (1, ID) /\ engine_recover_id b = Some (1, ID) /\ engine_recover_id c = Some (1, ID).
Proof. exists (chars "1"), (chars "00000000000000000001"), (chars "18446744073709551617"). vm_compute. repeat split; discriminate. Qed.
Theorem wal_other : wal_recover_names [chars "7.wal.old"; chars "7"] = [7; 7].
Proof. vm_compute. reflexivity. Qed.
Theorem wal_last : wal_recover_names [wal_name (2 ^ 64 - 1)] = [].
Proof. vm_compute. reflexivity. Qed.
Theorem long_path : exists d u, forall m1 s1 m2 s2, id_path d [] u m1 s1 = id_path d [] u m2 s2.
Proof.
  exists (repeat 47 4095), (mk_uuid 1 2). intros. unfold id_path, source_pathfmt, cut, PATH_MAX. change (4096 - 1)%nat with 4095%nat.
  rewrite !firstn_app, !repeat_length, Nat.sub_diag, !firstn_O, !app_nil_r. reflexivity.
Qed.
Theorem wal_names names ids : listing names ids -> wal_recover_names names = wal_recover ids.
Proof. intros H. exact (wal_listing names ids H []). Qed.
