(* Files with libraries that do what is said of them. *)
From Coq Require Import NArith ZArith Arith List Bool Lia.
Import ListNotations.
From Verif Require Import Model.Base Model.Event Model.Codec Model.Buf Model.Pack Model.File Model.Packed
  Spec.Order Spec.Checksum Spec.Files Spec.Buffers Spec.Packing Spec.Packed Spec.Sealed.
From Verif Require Import Proof.BufL Proof.PackL Proof.FileL Proof.FileW Proof.FileR Proof.FileC Proof.FileP Proof.PackX Proof.PackedL.
Local Open Scope Z_scope.

Definition toy_pieces (n : nat) (x : list N) : list (list N) := [firstn 24 x; skipn 24 x].
Definition toy_key : list N := repeat 9%N 32.
Definition toy_aes_seal (k iv x : list N) : list N * list N := (x, repeat 7%N 16).
Definition toy_aes_open (k iv tag c : list N) : option (list N) := Some c.
Definition toy_compress (room : Z) := file_compress toy_frame (fun _ n => n + 1) (fun _ => [1%N]) (fun _ _ l => l) (fun _ _ => [0%N]) (fun _ => room) toy_pieces 0.
Definition toy_decompress := file_decompress toy_content toy_step 0.
Definition toy_encrypt := file_encrypt toy_aes_seal (fun _ => 0) (fun n => (N.of_nat n, 5%N)) toy_key.
Definition toy_decrypt := file_decrypt toy_aes_open 0 toy_key.
Definition toy_source (compression : N) : source := mk_source 60 compression 1 true.
Definition toy_groups : list (list mevent) := [firstn 2 sample_events; firstn 2 (skipn 2 sample_events); skipn 4 sample_events].

Lemma toy_bytes : bytes_ok (fun _ => [1%N]) (fun _ _ l => l) (fun _ _ => [0%N]) toy_aes_seal.
Proof.
  split; intros.
  - repeat constructor.
  - assumption.
  - repeat constructor.
  - split; [assumption|]. apply Forall_forall. intros y Hy. apply repeat_spec in Hy. subst y. reflexivity.
Qed.
Lemma toy_pieces_ok : pieces_ok toy_pieces.
Proof. intros n x. unfold toy_pieces. cbn [concat]. rewrite app_nil_r. apply firstn_skipn. Qed.
Fixpoint each (f : nat -> list N -> bool) (n : nat) (cs : list (list N)) : bool :=
  match cs with [] => true | c :: cs => f n c && each f (S n) cs end.
Lemma each_at f cs : forall k, each f k cs = true -> forall n b, nth_error cs n = Some b -> f (k + n)%nat b = true.
Proof.
  induction cs as [|c cs IH]; intros k H [|n] b E; try discriminate; cbn [each] in H; apply andb_true_iff in H as [H1 H2].
  - injection E as <-. rewrite Nat.add_0_r. exact H1.
  - replace (k + S n)%nat with (S k + n)%nat by lia. apply IH; assumption.
Qed.
Definition size_okb (pieces : list (list N)) : bool :=
  (size_of (concat pieces) <=? 2 ^ 30) && (19 + 1 + fold_right (fun l n => size_of l + 1 + n) 0 pieces <=? 2 ^ 30).
Lemma sizes room c : each (fun n b => size_okb (toy_pieces n b)) 0 (contents (toy_compress room) toy_encrypt (toy_source c) sample_events toy_groups) = true ->
  forall n b, nth_error (contents (toy_compress room) toy_encrypt (toy_source c) sample_events toy_groups) n = Some b -> size_ok (fun _ n => n + 1) 0 (toy_pieces n b).
Proof.
  intros H n b E. pose proof (each_at _ _ _ H n b E) as Q. cbn beta in Q. apply andb_true_iff in Q as [Q1 Q2]. apply Z.leb_le in Q1, Q2. split; [exact Q1|exact Q2].
Qed.
(* with room for the frames, and without *)
Lemma toy_grouped c : grouped (toy_source c) sample_events toy_groups.
Proof. split; vm_compute; reflexivity. Qed.
Lemma toy_small c room : In (c, room) [(1%N, 1000); (1%N, 0); (2%N, 0)] ->
  small (write_file (toy_compress room) toy_encrypt (toy_source c) sample_stamp sample_events) (map fst sample_events) /\
  (forall n b, nth_error (contents (toy_compress room) toy_encrypt (toy_source c) sample_events toy_groups) n = Some b -> size_ok (fun _ n => n + 1) 0 (toy_pieces n b)).
Proof.
  intros [E|[E|[E|[]]]]; injection E as <- <-; (split; [repeat split; vm_compute; reflexivity|apply sizes; vm_compute; reflexivity]).
Qed.
Lemma toy_fit : all_fit toy_frame (fun _ n => n + 1) (fun _ => [1%N]) (fun _ _ l => l) (fun _ _ => [0%N]) toy_aes_seal (fun _ => 1000) (fun _ => 0) toy_pieces 0
   (fun n => (N.of_nat n, 5%N)) toy_key (toy_source 1) sample_events toy_groups.
Proof.
  intros n b E. apply (each_at (fun n b => size_of (toy_frame 0 b) <=? grown 1000 (size_of b)) _ O) in E; [apply Z.leb_le, E|]. vm_compute. reflexivity.
Qed.
Lemma toy_unfit : ~ all_fit toy_frame (fun _ n => n + 1) (fun _ => [1%N]) (fun _ _ l => l) (fun _ _ => [0%N]) toy_aes_seal (fun _ => 0) (fun _ => 0) toy_pieces 0
   (fun n => (N.of_nat n, 5%N)) toy_key (toy_source 1) sample_events toy_groups.
Proof. intro H. specialize (H O _ eq_refl). vm_compute in H. apply H. reflexivity. Qed.
Lemma toy_read :
  match read_file toy_decompress toy_decrypt (write_file (toy_compress 1000) toy_encrypt (toy_source 1) sample_stamp sample_events) with
  | Ok (ix, rs) => rs = map (map fst) toy_groups | _ => False end /\
  read_file toy_decompress toy_decrypt (write_file (toy_compress 0) toy_encrypt (toy_source 1) sample_stamp sample_events) = Err /\
  match read_file toy_decompress toy_decrypt (write_file (toy_compress 0) toy_encrypt (toy_source 2) sample_stamp sample_events) with
  | Ok (ix, rs) => rs = map (map fst) toy_groups | _ => False end.
Proof. vm_compute. auto. Qed.
Lemma toy_hypotheses : stamp_fit sample_stamp /\ Forall mev_ok sample_events /\
  (forall c, grouped (toy_source c) sample_events toy_groups) /\
  forall c room, In (c, room) [(1%N, 1000); (1%N, 0); (2%N, 0)] ->
    small (write_file (toy_compress room) toy_encrypt (toy_source c) sample_stamp sample_events) (map fst sample_events) /\
    (forall n b, nth_error (contents (toy_compress room) toy_encrypt (toy_source c) sample_events toy_groups) n = Some b ->
       size_ok (fun _ n => n + 1) 0 (toy_pieces n b)).
Proof. destruct sample_file_ok as (_ & A & B & _). split; [exact A|]. split; [exact B|]. split; [exact toy_grouped|exact toy_small]. Qed.
Lemma grouped_one s l : exists gs, grouped s l gs /\ forall gs', grouped s l gs' -> gs' = gs.
Proof.
  set (c := fun (_ : N) (_ : nat) (b : list N) => b).
  destruct (grouped_some c c (mk_source (so_region_size s) 0 0 true) eq_refl eq_refl l) as [gs G]. exists gs. split; [exact G|]. intros gs' G'. destruct G as [G1 G2].
  eapply groups_one; [exact G1|exact G2|exact G'].
Qed.
(* an lz4 that knows its frames *)
Definition wary_step (taken data : list N) (room : Z) : option (nat * list N) :=
  match data with 40%N :: _ => None | _ => toy_step taken data room end.
Lemma wary_lz4 : lz4_ok (fun _ n => n + 1) (fun _ => [1%N]) (fun _ _ l => l) (fun _ _ => [0%N]) wary_step.
Proof.
  destruct toy_lz4 as [A1 A2 A3 _]. split; [exact A1|exact A2|exact A3|].
  intros level argv. unfold lz4_frame. rewrite updated_concat. set (x := concat argv).
  exists (fun i j => (i = O /\ j = O) \/ (i = length ([1%N] ++ x ++ [0%N]) /\ j = length x)). split; [auto|]. split.
  - intros i j room [[-> ->]|[-> ->]] Hi Hr; [|lia]. exists (length ([1%N] ++ x ++ [0%N])), x. cbn [skipn firstn]. unfold wary_step, toy_step. cbn [app tl].
    rewrite removelast_last. split; [reflexivity|]. cbn [length]. rewrite firstn_all. repeat split; cbn; lia.
  - intros j [[E _]|[_ E]]; [discriminate E|exact E].
Qed.
Lemma wary_none z room : wary_step [] (40%N :: z) room = None.
Proof. reflexivity. Qed.
