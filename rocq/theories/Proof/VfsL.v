(* Lemmas on writes and reads in pieces. *)
From Coq Require Import NArith Arith List Bool Lia.
Import ListNotations.
From Verif Require Import Model.Base Model.Vfs Spec.Written.

Lemma os_write_nil f : os_write f [] = f.
Proof. reflexivity. Qed.

Definition pad (d : list N) (pos : nat) : list N := d ++ repeat 0%N (pos - length d).
Lemma pad_len d pos : pos <= length (pad d pos).
Proof. unfold pad. rewrite app_length, repeat_length. lia. Qed.
Lemma pad_in d pos : pos <= length d -> pad d pos = d.
Proof. intro H. unfold pad. replace (pos - length d) with 0 by lia. apply app_nil_r. Qed.

Lemma skipn_skipn {A} (a b : nat) (l : list A) : skipn a (skipn b l) = skipn (b + a) l.
Proof. revert l. induction b as [|b IH]; intros [|x l]; cbn [skipn Nat.add]; auto. destruct a; reflexivity. Qed.

Lemma os_write_app f a b : os_write (os_write f a) b = os_write f (a ++ b).
Proof.
  destruct a as [|x a]; [reflexivity|]. destruct b as [|y b]; [rewrite app_nil_r; reflexivity|].
  remember (x :: a) as xs eqn:Ex. remember (y :: b) as ys eqn:Ey.
  assert (E1 : os_write f xs = mk_fd (firstn (fd_pos f) (pad (fd_data f) (fd_pos f)) ++ xs ++ skipn (fd_pos f + length xs) (pad (fd_data f) (fd_pos f))) (fd_pos f + length xs))
    by (subst xs; reflexivity).
  assert (E2 : forall g, os_write g ys = mk_fd (firstn (fd_pos g) (pad (fd_data g) (fd_pos g)) ++ ys ++ skipn (fd_pos g + length ys) (pad (fd_data g) (fd_pos g))) (fd_pos g + length ys))
    by (intro g; subst ys; reflexivity).
  assert (E3 : os_write f (xs ++ ys) = mk_fd (firstn (fd_pos f) (pad (fd_data f) (fd_pos f)) ++ (xs ++ ys) ++ skipn (fd_pos f + length (xs ++ ys)) (pad (fd_data f) (fd_pos f))) (fd_pos f + length (xs ++ ys)))
    by (subst xs ys; reflexivity).
  rewrite E3, E2, E1. cbn [fd_pos fd_data]. clear. destruct f as [d p]. cbn [fd_pos fd_data].
  pose proof (pad_len d p) as L. set (D := pad d p) in *. clearbody D.
  assert (F : length (firstn p D) = p) by (rewrite firstn_length; lia).
  rewrite (pad_in (firstn p D ++ xs ++ skipn (p + length xs) D)) by (rewrite !app_length, F, skipn_length; lia).
  rewrite app_length. f_equal; [|lia].
  rewrite (app_assoc (firstn p D) xs).
  assert (FA : forall (A B : list N) n, n = length A -> firstn n (A ++ B) = A).
  { intros A B n ->. rewrite firstn_app, Nat.sub_diag, firstn_O, app_nil_r. apply firstn_all. }
  assert (SA : forall (A B : list N) n k, n = length A + k -> skipn n (A ++ B) = skipn k B).
  { intros A B n k ->. rewrite skipn_app, skipn_all2 by lia. cbn. f_equal. lia. }
  rewrite (FA (firstn p D ++ xs)) by (rewrite app_length, F; reflexivity).
  rewrite (SA (firstn p D ++ xs) _ _ (length ys)) by (rewrite app_length, F; reflexivity).
  rewrite skipn_skipn, <- !app_assoc, Nat.add_assoc. reflexivity.
Qed.

Lemma os_write_pos f l : fd_pos (os_write f l) = fd_pos f + length l.
Proof. destruct l; [cbn; lia|reflexivity]. Qed.

Lemma nth_firstn {A} (l : list A) n i : i < n -> nth_error (firstn n l) i = nth_error l i.
Proof. revert l i. induction n as [|n IH]; intros [|x l] [|i] H; cbn; auto; try lia. apply IH. lia. Qed.
Lemma nth_skipn {A} (l : list A) n i : nth_error (skipn n l) i = nth_error l (n + i).
Proof. revert l. induction n as [|n IH]; intros [|x l]; cbn; auto. destruct i; reflexivity. Qed.

(* inside the file or at its end *)
Lemma os_write_written f l : fd_pos f <= length (fd_data f) -> written (fd_data f) (fd_pos f) l (fd_data (os_write f l)).
Proof.
  intro H. destruct f as [d p]. cbn [fd_pos fd_data] in *. destruct l as [|x l].
  { cbn. repeat split; intros; cbn in *; try lia. }
  remember (x :: l) as xs eqn:Ex.
  assert (E : fd_data (os_write (mk_fd d p) xs) = firstn p (pad d p) ++ xs ++ skipn (p + length xs) (pad d p)) by (subst xs; reflexivity).
  rewrite E, (pad_in d p) by lia. clear E Ex.
  assert (F : length (firstn p d) = p) by (rewrite firstn_length; lia).
  unfold written, byte_at. repeat split; intros.
  - rewrite !app_length, F, skipn_length. lia.
  - rewrite nth_error_app1 by lia. apply nth_firstn. lia.
  - rewrite nth_error_app2 by lia. rewrite F. replace (p + i - p) with i by lia. apply nth_error_app1. lia.
  - rewrite nth_error_app2 by lia. rewrite F, nth_error_app2 by lia. rewrite nth_skipn. f_equal. lia.
Qed.
(* [written] determines the bytes *)
Lemma nth_ext_eq {A} : forall (a b : list A), length a = length b -> (forall i, nth_error a i = nth_error b i) -> a = b.
Proof.
  induction a as [|x a IH]; intros [|y b] L H; cbn in L; try discriminate; [reflexivity|].
  pose proof (H 0) as H0. injection H0 as ->. f_equal. apply IH; [lia|]. intro i. exact (H (S i)).
Qed.
Lemma written_unique d pos l a b : written d pos l a -> written d pos l b -> a = b.
Proof.
  intros (A1 & A2 & A3 & A4) (B1 & B2 & B3 & B4). apply nth_ext_eq; [congruence|]. intro i.
  destruct (Nat.lt_ge_cases i pos) as [H|H]; [unfold byte_at in *; rewrite A2, B2 by lia; reflexivity|].
  destruct (Nat.lt_ge_cases i (pos + length l)) as [H2|H2]; [|unfold byte_at in *; rewrite A4, B4 by lia; reflexivity].
  replace i with (pos + (i - pos)) by lia. unfold byte_at in *. rewrite A3, B3 by lia. reflexivity.
Qed.
(* at the end of the file it is appending *)
Lemma os_write_end d l : os_write (mk_fd d (length d)) l = mk_fd (d ++ l) (length (d ++ l)).
Proof.
  destruct l as [|x l]; [cbn; rewrite app_nil_r; reflexivity|]. remember (x :: l) as xs eqn:Ex.
  assert (E : os_write (mk_fd d (length d)) xs = mk_fd (firstn (length d) (pad d (length d)) ++ xs ++ skipn (length d + length xs) (pad d (length d))) (length d + length xs)) by (subst xs; reflexivity).
  rewrite E, pad_in by lia. rewrite firstn_all, skipn_all2 by lia. rewrite app_nil_r, app_length. reflexivity.
Qed.
(* at the start the rest remains *)
Lemma os_write_start d l : fd_data (os_write (mk_fd d 0) l) = l ++ skipn (length l) d.
Proof. destruct l as [|x l]; [reflexivity|]. cbn [os_write fd_pos fd_data]. cbn [Nat.sub repeat]. rewrite app_nil_r. reflexivity. Qed.

Lemma firstn_add {A} (a b : nat) (l : list A) : firstn (a + b) l = firstn a l ++ firstn b (skipn a l).
Proof. revert l. induction a as [|a IH]; intros [|x l]; cbn [firstn skipn Nat.add app]; auto; [destruct b; reflexivity|]. rewrite IH. reflexivity. Qed.

(* ---- write ---- *)
Lemma vfs_write_all : forall s n f l,
  match vfs_write_at n s f l with
  | WDone f' m _ => f' = os_write f l /\ m = n + length l
  | WFail f' _ | WBusy f' => exists j, f' = os_write f (firstn j l)
  end.
Proof.
  induction s as [|[k| |] s IH]; intros n f l; cbn [vfs_write_at].
  - exists 0. reflexivity.
  - destruct (Nat.min k (length l) =? 0) eqn:E0; [exists 0; reflexivity|].
    destruct (length l =? Nat.min k (length l)) eqn:E1.
    + apply Nat.eqb_eq in E1. split; [rewrite <- E1, firstn_all; reflexivity|lia].
    + specialize (IH (n + Nat.min k (length l)) (os_write f (firstn (Nat.min k (length l)) l)) (skipn (Nat.min k (length l)) l)).
      destruct (vfs_write_at _ _ _ _) as [f' m s'|f' s'|f'].
      * destruct IH as [-> ->]. rewrite os_write_app, firstn_skipn, skipn_length. split; [reflexivity|lia].
      * destruct IH as [j ->]. rewrite os_write_app. exists (Nat.min k (length l) + j). rewrite firstn_add. reflexivity.
      * destruct IH as [j ->]. rewrite os_write_app. exists (Nat.min k (length l) + j). rewrite firstn_add. reflexivity.
  - apply IH.
  - exists 0. reflexivity.
Qed.

(* ---- writev ---- *)
Lemma iov_skip_concat : forall v r, r <= length (concat v) -> concat (iov_skip r v) = skipn r (concat v).
Proof.
  induction v as [|b v IH]; intros r H; cbn [iov_skip concat].
  - destruct r; reflexivity.
  - cbn [concat] in H. rewrite app_length in H. destruct (r <? length b) eqn:E.
    + apply Nat.ltb_lt in E. cbn [concat]. rewrite skipn_app. replace (r - length b) with 0 by lia. reflexivity.
    + apply Nat.ltb_ge in E. rewrite IH by lia. rewrite skipn_app, (skipn_all2 b) by lia. reflexivity.
Qed.
Lemma vfs_writev_all : forall s n f v,
  match vfs_writev_at n s f v with
  | WDone f' m _ => f' = os_write f (concat v) /\ m = n + length (concat v)
  | WFail f' _ | WBusy f' => exists j, f' = os_write f (firstn j (concat v))
  end.
Proof.
  induction s as [|[k| |] s IH]; intros n f v; cbn [vfs_writev_at].
  - exists 0. reflexivity.
  - set (r := Nat.min k (length (concat v))). assert (R : r <= length (concat v)) by lia. clearbody r.
    pose proof (iov_skip_concat v r R) as C.
    destruct (iov_skip r v) as [|b t] eqn:E.
    + cbn in C. symmetry in C. apply (f_equal (@length N)) in C. rewrite skipn_length in C. cbn in C.
      assert (r = length (concat v)) as -> by lia. rewrite firstn_all. split; [reflexivity|lia].
    + specialize (IH (n + r) (os_write f (firstn r (concat v))) (b :: t)). rewrite C in IH.
      destruct (vfs_writev_at _ _ _ _) as [f' m s'|f' s'|f'].
      * destruct IH as [-> ->]. rewrite os_write_app, firstn_skipn, skipn_length. split; [reflexivity|lia].
      * destruct IH as [j ->]. rewrite os_write_app. exists (r + j). rewrite firstn_add. reflexivity.
      * destruct IH as [j ->]. rewrite os_write_app. exists (r + j). rewrite firstn_add. reflexivity.
  - apply IH.
  - exists 0. reflexivity.
Qed.

(* ---- file_write ---- *)
Lemma file_write_all s f l :
  match file_write s f l with
  | FDone f' _ => fl_fd f' = os_write (fl_fd f) l /\ fl_size f' = fl_size f + length l
  | FFail f' _ | FBusy f' => exists j, fl_fd f' = os_write (fl_fd f) (firstn j l) /\ fl_size f' = fl_size f /\ j <= length l
  end.
Proof.
  unfold file_write, vfs_write. pose proof (vfs_write_all s 0 (fl_fd f) l) as W.
  destruct (vfs_write_at 0 s (fl_fd f) l); cbn [fl_fd fl_size].
  - destruct W as [-> W]. split; [reflexivity|]. lia.
  - destruct W as [j ->]. exists (Nat.min j (length l)). repeat split; [|lia]. f_equal.
    destruct (Nat.le_ge_cases j (length l)); [rewrite Nat.min_l by lia; reflexivity|]. rewrite Nat.min_r by lia. rewrite firstn_all, firstn_all2 by lia. reflexivity.
  - destruct W as [j ->]. exists (Nat.min j (length l)). repeat split; [|lia]. f_equal.
    destruct (Nat.le_ge_cases j (length l)); [rewrite Nat.min_l by lia; reflexivity|]. rewrite Nat.min_r by lia. rewrite firstn_all, firstn_all2 by lia. reflexivity.
Qed.

(* ---- file_writev ---- *)
Lemma firstn_past {A} (a b : list A) j : firstn (length a + j) (a ++ b) = a ++ firstn j b.
Proof. rewrite firstn_add, firstn_app, Nat.sub_diag, firstn_O, app_nil_r, firstn_all, skipn_app, skipn_all, Nat.sub_diag. reflexivity. Qed.
Lemma firstn_prefix {A} j (a b : list A) : exists i, firstn j a = firstn i (a ++ b).
Proof. exists (Nat.min j (length a)). rewrite firstn_app. replace (Nat.min j (length a) - length a) with 0 by lia. rewrite firstn_O, app_nil_r.
  destruct (Nat.le_ge_cases j (length a)); [rewrite Nat.min_l by lia; reflexivity|]. rewrite Nat.min_r by lia. rewrite firstn_all, firstn_all2 by lia. reflexivity. Qed.
Lemma file_writev_all : forall fuel iov_max s f v, 0 < iov_max -> length v <= fuel ->
  match file_writev fuel iov_max s f v with
  | FDone f' _ => fl_fd f' = os_write (fl_fd f) (concat v) /\ fl_size f' = fl_size f + length (concat v)
  | FFail f' _ | FBusy f' => exists j, fl_fd f' = os_write (fl_fd f) (firstn j (concat v)) /\ fl_size f <= fl_size f' <= fl_size f + j /\ j <= length (concat v)
  end.
Proof.
  induction fuel as [|fuel IH]; intros iov_max s f v Hm Hl.
  - destruct v; [cbn; split; [reflexivity|lia]|cbn in Hl; lia].
  - destruct v as [|b v]; [cbn; split; [reflexivity|lia]|]. remember (b :: v) as V eqn:EV.
    assert (U : file_writev (S fuel) iov_max s f V =
      let n := if iov_max <? length V then iov_max else length V in
      match vfs_writev s (fl_fd f) (firstn n V) with
      | WDone d w s => file_writev fuel iov_max s (mk_file d (fl_size f + w)) (skipn n V)
      | WFail d s => FFail (mk_file d (fl_size f)) s
      | WBusy d => FBusy (mk_file d (fl_size f))
      end) by (subst V; reflexivity).
    rewrite U. clear U. cbv zeta. set (n := if iov_max <? length V then iov_max else length V).
    assert (N1 : 0 < n) by (unfold n; destruct (iov_max <? length V); [lia|subst V; cbn; lia]). 
    assert (N2 : n <= length V) by (unfold n; destruct (iov_max <? length V) eqn:E; [apply Nat.ltb_lt in E; lia|lia]). clearbody n.
    pose proof (vfs_writev_all s 0 (fl_fd f) (firstn n V)) as W. unfold vfs_writev.
    assert (Sp : concat V = concat (firstn n V) ++ concat (skipn n V)) by (rewrite <- concat_app, firstn_skipn; reflexivity).
    assert (Bad : forall d, (exists j, d = os_write (fl_fd f) (firstn j (concat (firstn n V)))) ->
       exists j, d = os_write (fl_fd f) (firstn j (concat V)) /\ fl_size f <= fl_size f <= fl_size f + j /\ j <= length (concat V)).
    { intros d [j ->]. destruct (firstn_prefix j (concat (firstn n V)) (concat (skipn n V))) as [i Hi]. rewrite Hi, <- Sp.
      destruct (Nat.le_ge_cases i (length (concat V))).
      - exists i. split; [reflexivity|lia].
      - exists (length (concat V)). rewrite firstn_all, firstn_all2 by lia. split; [reflexivity|lia]. }
    destruct (vfs_writev_at 0 s (fl_fd f) (firstn n V)) as [d w s'|d s'|d].
    + destruct W as [-> ->]. cbn [Nat.add].
      specialize (IH iov_max s' (mk_file (os_write (fl_fd f) (concat (firstn n V))) (fl_size f + length (concat (firstn n V)))) (skipn n V) Hm).
      rewrite skipn_length in IH. specialize (IH ltac:(lia)). cbn [fl_fd fl_size] in IH.
      destruct (file_writev fuel iov_max s' _ _) as [f' s2|f' s2|f'].
      * destruct IH as [-> ->]. rewrite os_write_app, <- Sp. split; [reflexivity|]. rewrite Sp, app_length. lia.
      * destruct IH as (j & -> & Hs & Hj). exists (length (concat (firstn n V)) + j). rewrite os_write_app.
        replace (firstn (length (concat (firstn n V)) + j) (concat V)) with (concat (firstn n V) ++ firstn j (concat (skipn n V))).
        -- split; [reflexivity|]. rewrite Sp, app_length. lia.
        -- rewrite Sp, firstn_past. reflexivity.
      * destruct IH as (j & -> & Hs & Hj). exists (length (concat (firstn n V)) + j). rewrite os_write_app.
        replace (firstn (length (concat (firstn n V)) + j) (concat V)) with (concat (firstn n V) ++ firstn j (concat (skipn n V))).
        -- split; [reflexivity|]. rewrite Sp, app_length. lia.
        -- rewrite Sp, firstn_past. reflexivity.
    + cbn [fl_fd fl_size]. apply Bad, W.
    + cbn [fl_fd fl_size]. apply Bad, W.
Qed.

(* ---- progress ---- *)
Definition working (a : answer) : bool := match a with ADone (S _) => true | _ => false end.
Definition fine (s : list answer) : Prop := Forall (fun a => a = AIntr \/ working a = true) s.
Definition rounds (s : list answer) : nat := length (filter working s).

Lemma vfs_write_ends : forall s n f l, fine s -> l <> [] -> length l <= rounds s ->
  exists m t, vfs_write_at n s f l = WDone (os_write f l) m t.
Proof.
  induction s as [|a s IH]; intros n f l Hf Hl Hr.
  - destruct l; [congruence|]. cbn in Hr. lia.
  - inversion Hf as [|x y Ha Hs]; subst. destruct Ha as [->|Ha].
    + cbn [vfs_write_at]. apply IH; auto.
    + destruct a as [[|k]| |]; try discriminate. cbn [vfs_write_at].
      assert (P : 0 < length l) by (destruct l; [congruence|cbn; lia]).
      assert (R : 0 < Nat.min (S k) (length l) <= length l) by lia. set (r := Nat.min (S k) (length l)) in *. clearbody r.
      destruct (r =? 0) eqn:E0; [apply Nat.eqb_eq in E0; lia|]. unfold rounds in Hr. cbn [filter working length] in Hr.
      destruct (length l =? r) eqn:E1.
      * apply Nat.eqb_eq in E1. rewrite <- E1, firstn_all. eauto.
      * apply Nat.eqb_neq in E1.
        destruct (IH (n + r) (os_write f (firstn r l)) (skipn r l)) as (m & t & E); auto.
        -- intro Q. apply (f_equal (@length N)) in Q. rewrite skipn_length in Q. cbn in Q. lia.
        -- rewrite skipn_length. unfold rounds. lia.
        -- exists m, t. rewrite E, os_write_app, firstn_skipn. reflexivity.
Qed.
Lemma iov_skip_all : forall v, iov_skip (length (concat v)) v = [].
Proof.
  induction v as [|b v IH]; cbn [iov_skip concat]; [reflexivity|]. rewrite app_length.
  destruct (length b + length (concat v) <? length b) eqn:E; [apply Nat.ltb_lt in E; lia|].
  replace (length b + length (concat v) - length b) with (length (concat v)) by lia. exact IH.
Qed.
Lemma vfs_writev_ends : forall s n f v, fine s -> Nat.max 1 (length (concat v)) <= rounds s ->
  exists m t, vfs_writev_at n s f v = WDone (os_write f (concat v)) m t.
Proof.
  induction s as [|a s IH]; intros n f v Hf Hr.
  - unfold rounds in Hr; cbn [filter length] in Hr. lia.
  - inversion Hf as [|x y Ha Hs]; subst. destruct Ha as [->|Ha].
    + cbn [vfs_writev_at]. apply IH; auto.
    + destruct a as [[|k]| |]; try discriminate. cbn [vfs_writev_at]. 
      assert (R : Nat.min (S k) (length (concat v)) <= length (concat v)) by lia.
      assert (R0 : length (concat v) = 0 \/ 0 < Nat.min (S k) (length (concat v))) by lia.
      set (r := Nat.min (S k) (length (concat v))) in *. clearbody r. pose proof (iov_skip_concat v r R) as C.
      destruct (Nat.eq_dec r (length (concat v))) as [E|E].
      * rewrite E, iov_skip_all, firstn_all. eauto.
      * destruct (iov_skip r v) as [|b t] eqn:Es.
        { cbn in C. symmetry in C. apply (f_equal (@length N)) in C. rewrite skipn_length in C. cbn in C. lia. }
        unfold rounds in Hr. cbn [filter working length] in Hr.
        destruct (IH (n + r) (os_write f (firstn r (concat v))) (b :: t)) as (m & q & E2); auto.
        -- rewrite C, skipn_length. unfold rounds. lia.
        -- exists m, q. rewrite E2, C, os_write_app, firstn_skipn. reflexivity.
Qed.

(* a system that writes nothing without failing keeps the call forever; an empty write fails *)
Lemma writev_zero : forall k n f v, concat v <> [] -> vfs_writev_at n (repeat (ADone 0) k) f v = WBusy f.
Proof.
  induction k as [|k IH]; intros n f v Hv; cbn [repeat vfs_writev_at]; [reflexivity|].
  cbn [Nat.min firstn]. rewrite os_write_nil. pose proof (iov_skip_concat v 0 ltac:(lia)) as C. cbn [skipn] in C.
  destruct (iov_skip 0 v) as [|b t]; [cbn in C; congruence|]. apply IH. congruence.
Qed.
Lemma write_nothing s f k : vfs_write (ADone k :: s) f [] = WFail f s.
Proof. unfold vfs_write. cbn. rewrite Nat.min_0_r. reflexivity. Qed.

(* ---- reads ---- *)
Lemma vfs_read_all : forall s got d pos size,
  match vfs_read_at got s d pos size with
  | RDone l _ => l = got ++ firstn size (skipn pos d) /\ pos + size <= length d /\ 0 < size
  | _ => True
  end.
Proof.
  induction s as [|[k| |] s IH]; intros got d pos size; cbn [vfs_read_at]; auto.
  - set (l := firstn (Nat.min k size) (skipn pos d)).
    assert (L : length l = Nat.min (Nat.min k size) (length d - pos)) by (unfold l; rewrite firstn_length, skipn_length; reflexivity).
    destruct (length l =? 0) eqn:E0; [exact I|]. apply Nat.eqb_neq in E0. destruct (size =? length l) eqn:E1.
    + apply Nat.eqb_eq in E1. split; [|lia]. f_equal. unfold l. replace (Nat.min k size) with size by lia. reflexivity.
    + apply Nat.eqb_neq in E1. specialize (IH (got ++ l) d (pos + length l) (size - length l)).
      destruct (vfs_read_at _ s d _ _) as [x s'|s'|]; auto. destruct IH as (-> & H2 & H3). split; [|lia].
      rewrite <- app_assoc. f_equal.
      assert (El : l = firstn (length l) (skipn pos d)).
      { unfold l at 1. rewrite <- (firstn_skipn (length l) (skipn pos d)) at 1. rewrite firstn_app.
        assert (F : length (firstn (length l) (skipn pos d)) = length l) by (rewrite firstn_length, skipn_length; lia).
        rewrite F. replace (Nat.min k size - length l) with 0 by lia. rewrite firstn_O, app_nil_r. rewrite firstn_all2 by lia. reflexivity. }
      rewrite El at 1. replace size with (length l + (size - length l)) at 2 by lia. rewrite firstn_add. f_equal. f_equal.
      rewrite skipn_skipn. reflexivity.
  - apply IH.
Qed.
Lemma vfs_read_ends : forall s got d pos size, fine s -> 0 < size -> pos + size <= length d -> size <= rounds s ->
  exists t, vfs_read_at got s d pos size = RDone (got ++ firstn size (skipn pos d)) t.
Proof.
  intros s got d pos size Hf H0 Hd Hr.
  assert (Q : exists l t, vfs_read_at got s d pos size = RDone l t).
  { revert got pos size Hf H0 Hd Hr. induction s as [|a s IH]; intros got pos size Hf H0 Hd Hr; [cbn in Hr; lia|].
    inversion Hf as [|x y Ha Hs]; subst. destruct Ha as [->|Ha]; [cbn [vfs_read_at]; apply IH; auto|].
    destruct a as [[|k]| |]; try discriminate. cbn [vfs_read_at].
    set (l := firstn (Nat.min (S k) size) (skipn pos d)).
    assert (L : length l = Nat.min (S k) size) by (unfold l; rewrite firstn_length, skipn_length; lia). rewrite L.
    destruct (Nat.min (S k) size =? 0) eqn:E0; [apply Nat.eqb_eq in E0; lia|].
    destruct (size =? Nat.min (S k) size) eqn:E1; [eauto|]. apply Nat.eqb_neq in E1. unfold rounds in Hr. cbn in Hr.
    apply IH; auto; try lia. unfold rounds. lia. }
  destruct Q as (l & t & E). pose proof (vfs_read_all s got d pos size) as A. rewrite E in A. destruct A as [-> _]. eauto.
Qed.

(* ---- creating ---- *)
Lemma create_exact old new : fd_data (os_write (fl_fd (file_create old)) new) = new <->
  match old with Some l => length l <= length new | None => True end.
Proof.
  unfold file_create. cbn [fl_fd]. rewrite os_write_start. destruct old as [l|].
  - split.
    + intro H. rewrite <- (app_nil_r new) in H at 3. apply app_inv_head in H. apply (f_equal (@length N)) in H. rewrite skipn_length in H. cbn in H. lia.
    + intro H. rewrite skipn_all2 by lia. apply app_nil_r.
  - split; [auto|]. intros _. rewrite skipn_nil. apply app_nil_r.
Qed.
