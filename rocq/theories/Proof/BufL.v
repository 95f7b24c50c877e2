(* Buffers. *)
From Coq Require Import NArith ZArith Arith List Bool Lia.
Import ListNotations.
From Verif Require Import Model.Base Model.Buf Spec.Buffers.
Local Open Scope Z_scope.

Lemma i32_small z : - 2 ^ 31 <= z < 2 ^ 31 -> i32_of_z z = z.
Proof.
  intro H. unfold i32_of_z. destruct (Z.leb_spec 0 z).
  - rewrite Z.mod_small by lia. destruct (Z.ltb_spec z (2 ^ 31)); lia.
  - replace (z mod 2 ^ 32) with (z + 2 ^ 32); [destruct (Z.ltb_spec (z + 2 ^ 32) (2 ^ 31)); lia|].
    apply (Z.mod_unique _ _ (-1)); lia.
Qed.
Lemma int_of_ok z : - 2 ^ 31 <= z < 2 ^ 31 -> int_of z = Ok z.
Proof. intro H. unfold int_of. destruct (Z.leb_spec (- 2 ^ 31) z); [|lia]. destruct (Z.ltb_spec z (2 ^ 31)); [reflexivity|lia]. Qed.
Lemma int_of_over z : 2 ^ 31 <= z -> int_of z = UB.
Proof. intro H. unfold int_of. destruct (Z.ltb_spec z (2 ^ 31)); [lia|]. now rewrite andb_false_r. Qed.
Lemma len_pos l : 0 <= len l.
Proof. unfold len. lia. Qed.
Lemma len_app a b : len (a ++ b) = len a + len b.
Proof. unfold len. rewrite app_length. lia. Qed.

Lemma reserve_ok b n : held b -> b_cap b < 2 ^ 30 -> 0 <= n -> len (b_bytes b) + n < 2 ^ 31 ->
  exists c, buf_reserve b n = Ok (mk_buf (b_bytes b) c) /\ len (b_bytes b) + n <= c /\ c < 2 ^ 31 /\ b_cap b <= c /\
    (n <= buf_size_unused b /\ c = b_cap b \/ buf_size_unused b < n /\ b_cap b < len (b_bytes b) + n /\ 2 * b_cap b <= c /\ c <= Z.max (2 * b_cap b) (len (b_bytes b) + n)).
Proof.
  intros [H1 H2] Hc Hn Hl. unfold buf_reserve. fold (len (b_bytes b)) in H1. assert (P := len_pos (b_bytes b)).
  assert (U : buf_size_unused b = b_cap b - len (b_bytes b)) by (apply i32_small; lia). rewrite U.
  destruct (Z.leb_spec n (b_cap b - len (b_bytes b))).
  - exists (b_cap b). split; [destruct b; reflexivity|]. lia.
  - unfold buf_size, buf_capacity. rewrite !i32_small, !int_of_ok by lia. cbn [bind].
    destruct (Z.ltb_spec (b_cap b * 2) (len (b_bytes b) + n)).
    + destruct (Z.ltb_spec (len (b_bytes b) + n) 0); [lia|]. eexists. split; [reflexivity|]. lia.
    + destruct (Z.ltb_spec (b_cap b * 2) 0); [lia|]. eexists. split; [reflexivity|]. lia.
Qed.
Lemma advance_ok b l : len (b_bytes b) + len l <= b_cap b -> buf_advance b l = Ok (mk_buf (b_bytes b ++ l) (b_cap b)).
Proof. intro H. unfold buf_advance. destruct (Z.leb_spec (len (b_bytes b) + len l) (b_cap b)); [reflexivity|lia]. Qed.

Lemma write_ok b l : held b -> b_cap b < 2 ^ 30 -> len (b_bytes b) + len l < 2 ^ 31 ->
  exists c, buf_write b l = Ok (mk_buf (b_bytes b ++ l) c) /\ held (mk_buf (b_bytes b ++ l) c) /\
    (len l <= buf_size_unused b /\ c = b_cap b \/
     buf_size_unused b < len l /\ b_cap b < len (b_bytes b ++ l) /\ 2 * b_cap b <= c <= Z.max (2 * b_cap b) (len (b_bytes b ++ l)) /\ len (b_bytes b ++ l) <= c).
Proof.
  intros Hb Hc Hl. assert (P := len_pos l). destruct (reserve_ok b (len l) Hb Hc P Hl) as (c & E & H1 & H2 & H3 & H4).
  exists c. unfold buf_write. rewrite E. cbn [bind]. unfold buf_append. rewrite advance_ok by exact H1. split; [reflexivity|].
  unfold held. cbn [b_bytes b_cap]. fold (len (b_bytes b ++ l)). rewrite len_app. split; [lia|]. lia.
Qed.
Lemma write_room b l : held b -> len (b_bytes b) + len l <= b_cap b ->
  buf_write b l = Ok (mk_buf (b_bytes b ++ l) (b_cap b)) /\ len l <= buf_size_unused b.
Proof.
  intros [H1 H2] H. fold (len (b_bytes b)) in H1. assert (P := len_pos (b_bytes b)). assert (Q := len_pos l). unfold buf_write, buf_reserve.
  assert (U : buf_size_unused b = b_cap b - len (b_bytes b)) by (apply i32_small; lia). rewrite U.
  destruct (Z.leb_spec (len l) (b_cap b - len (b_bytes b))); [|lia]. cbn [bind]. unfold buf_append. rewrite advance_ok by lia. split; [reflexivity|lia].
Qed.
(* as much as 2^30 bytes, in any number of writes *)
Lemma writes_from : forall ls b, held b -> b_cap b < 2 ^ 30 \/ len (b_bytes b ++ concat ls) <= b_cap b -> len (b_bytes b ++ concat ls) <= 2 ^ 30 ->
  exists c n, buf_writes b ls = Ok (mk_buf (b_bytes b ++ concat ls) c, n) /\ held (mk_buf (b_bytes b ++ concat ls) c) /\
    ((1 <= n)%nat -> 2 ^ (Z.of_nat n - 1) * b_cap b < len (b_bytes b ++ concat ls)) /\
    ((2 <= n)%nat -> 2 ^ (Z.of_nat n - 2) < len (b_bytes b ++ concat ls)).
Proof.
  induction ls as [|l ls IH]; intros b Hb Hc Ht; cbn [concat] in *.
  - rewrite app_nil_r in *. exists (b_cap b), O. split; [destruct b; reflexivity|]. split; [destruct b; exact Hb|]. lia.
  - assert (Hl : len (b_bytes b ++ l) <= len (b_bytes b ++ l ++ concat ls)) by (rewrite !len_app; assert (Q := len_pos (concat ls)); lia).
    rewrite app_assoc in *. set (t := (b_bytes b ++ l) ++ concat ls) in *.
    assert (E : exists c, buf_write b l = Ok (mk_buf (b_bytes b ++ l) c) /\ held (mk_buf (b_bytes b ++ l) c) /\ (c < 2 ^ 30 \/ len t <= c) /\
        (len l <= buf_size_unused b /\ c = b_cap b \/ buf_size_unused b < len l /\ b_cap b < len t /\ 2 * b_cap b <= c /\ 1 <= c)).
    { destruct (Z.leb_spec (len (b_bytes b) + len l) (b_cap b)) as [R|R].
      - destruct (write_room b l Hb R) as [E U]. exists (b_cap b). split; [exact E|]. split; [|split; [exact Hc|left; auto]].
        destruct Hb. unfold held. cbn [b_bytes b_cap]. fold (len (b_bytes b ++ l)). rewrite len_app. lia.
      - rewrite len_app in Hl. assert (C : b_cap b < 2 ^ 30) by lia. destruct (write_ok b l Hb C ltac:(lia)) as (c & E & H & D).
        exists c. split; [exact E|]. split; [exact H|]. destruct H as [H1 H2]. cbn [b_bytes b_cap] in H1. fold (len (b_bytes b ++ l)) in H1. rewrite len_app in *.
        destruct D as [[D1 D2]|(D1 & D2 & D3 & D4)]; [lia|]. assert (P := len_pos (b_bytes b)). split; [|right; destruct Hb; lia].
        destruct (Z.ltb_spec c (2 ^ 30)); [left; assumption|right]. lia. }
    destruct E as (c & E & H1 & H2 & H3). destruct (IH _ H1 H2 Ht) as (d & n & F & G1 & G2 & G3). cbn [b_bytes b_cap] in *.
    exists d, (if len l <=? buf_size_unused b then n else S n). cbn [buf_writes]. rewrite E. cbn [bind]. rewrite F. cbn [bind]. split; [reflexivity|]. split; [exact G1|].
    fold t in G2, G3. destruct H3 as [[U1 U2]|(U1 & U2 & U3 & U4)].
    + apply Z.leb_le in U1. rewrite U1. subst c. auto.
    + apply Z.leb_gt in U1. rewrite U1. destruct Hb as [Hb1 Hb2]. assert (Hb3 : 0 <= b_cap b) by lia. split; intro K.
      * destruct n as [|n]; [change (2 ^ (Z.of_nat 1 - 1)) with 1; lia|]. specialize (G2 ltac:(lia)). replace (Z.of_nat (S (S n)) - 1) with (Z.of_nat (S n) - 1 + 1) by lia.
        rewrite Z.pow_add_r by lia. assert (0 <= 2 ^ (Z.of_nat (S n) - 1)) by (apply Z.pow_nonneg; lia). nia.
      * specialize (G2 ltac:(lia)). replace (Z.of_nat (S n) - 2) with (Z.of_nat n - 1) by lia. assert (0 <= 2 ^ (Z.of_nat n - 1)) by (apply Z.pow_nonneg; lia). nia.
Qed.
Lemma written ls : size_all ls <= 2 ^ 30 ->
  exists c n, buf_writes buf_init ls = Ok (mk_buf (concat ls) c, n) /\ held (mk_buf (concat ls) c) /\ ((2 <= n)%nat -> 2 ^ (Z.of_nat n - 2) < size_all ls).
Proof.
  intro H. destruct (writes_from ls buf_init) as (c & n & A & B & _ & D).
  - split; cbn; lia.
  - left. cbn. lia.
  - exact H.
  - exists c, n. auto.
Qed.
(* one byte more *)
Lemma write_over b l : held b -> 2 ^ 30 <= b_cap b -> b_cap b < len (b_bytes b) + len l -> len l < 2 ^ 31 -> buf_write b l = UB.
Proof.
  intros [H1 H2] Hc H L. fold (len (b_bytes b)) in H1. assert (P := len_pos (b_bytes b)). unfold buf_write, buf_reserve.
  assert (U : buf_size_unused b = b_cap b - len (b_bytes b)) by (apply i32_small; lia). rewrite U.
  destruct (Z.leb_spec (len l) (b_cap b - len (b_bytes b))); [lia|].
  unfold buf_size, buf_capacity. rewrite !i32_small by lia.
  destruct (int_of (len (b_bytes b) + len l)) eqn:E; cbn [bind]; [rewrite int_of_over by lia; reflexivity| |reflexivity].
  unfold int_of in E. destruct (_ && _) in E; discriminate.
Qed.
Lemma overrun_at l1 : len l1 = 2 ^ 30 -> size_all [l1; [0%N]] = 2 ^ 30 + 1 /\ buf_writes buf_init [l1; [0%N]] = UB.
Proof.
  intro L1. split.
  - unfold size_all. cbn [concat]. rewrite app_nil_r. change (len (l1 ++ [0%N]) = 2 ^ 30 + 1). rewrite len_app, L1. reflexivity.
  - cbn [buf_writes]. destruct (write_ok buf_init l1) as (c & E & H & D); [split; cbn; lia|cbn; lia|cbn [b_bytes buf_init]; change (len []) with 0; lia|].
    cbn [b_bytes buf_init app] in E, H. rewrite E. cbn [bind].
    assert (C : c = 2 ^ 30).
    { cbn [b_bytes b_cap buf_init app] in D. rewrite L1 in D. destruct D as [[D1 D2]|D]; [|lia]. exfalso. change (buf_size_unused buf_init) with 0 in D1. lia. }
    subst c. rewrite write_over; [reflexivity|exact H| | |]; cbn [b_bytes b_cap]; rewrite ?L1; unfold len; cbn [length]; lia.
Qed.
Lemma some_list n : 0 <= n -> exists l, len l = n.
Proof. intro H. exists (repeat 0%N (Z.to_nat n)). unfold len. rewrite repeat_length. apply Z2Nat.id, H. Qed.
Lemma overrun : exists l1 l2, size_all [l1; l2] = 2 ^ 30 + 1 /\ buf_writes buf_init [l1; l2] = UB.
Proof. destruct (some_list (2 ^ 30) ltac:(lia)) as [l L]. exists l, [0%N]. apply overrun_at, L. Qed.
(* the one use of buf_printf *)
Lemma vprintf_ok b l : len l < 1024 -> buf_vprintf b l = buf_write b l.
Proof. intro H. unfold buf_vprintf. destruct (Z.ltb_spec (len l) 1025); [|lia]. destruct (Z.eqb_spec (len l) 1024); [lia|reflexivity]. Qed.
