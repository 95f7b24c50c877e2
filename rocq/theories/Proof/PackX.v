(* Libraries that do what is said of them, and what becomes of a partition file. *)
From Coq Require Import NArith ZArith Arith List Bool Lia.
Import ListNotations.
From Verif Require Import Model.Base Model.Event Model.Codec Model.Buf Model.Pack Model.File Spec.Order Spec.Checksum Spec.Files Spec.Buffers Spec.Packing.
From Verif Require Import Proof.BufL Proof.PackL Proof.FileL Proof.FileR Proof.FileC Proof.FileP.
Local Open Scope Z_scope.

(* every byte after a one, then a zero *)
Definition marked (x : list N) : list N := flat_map (fun b => [1%N; (b mod 256)%N]) x.
Definition toy_frame (level : Z) (x : list N) : list N := 40%N :: marked x ++ [0%N].
Fixpoint unmarked (l : list N) : option (list N) :=
  match l with
  | 0%N :: [] => Some []
  | 1%N :: b :: l => option_map (cons b) (unmarked l)
  | _ => None
  end.
Definition toy_content (z : list N) (n : Z) : option (list N) :=
  match z with
  | 40%N :: l => match unmarked l with Some x => if size_of x <=? n then Some x else None | None => None end
  | _ => None
  end.
Lemma unmark x : bytes x -> unmarked (marked x ++ [0%N]) = Some x.
Proof.
  induction 1 as [|b x Hb _ IH]; [reflexivity|]. cbn [marked flat_map app unmarked]. fold (marked x). rewrite IH, N.mod_small by exact Hb. reflexivity.
Qed.
Lemma unmark_cut : forall x k, (k < length (marked x ++ [0%N]))%nat -> unmarked (firstn k (marked x ++ [0%N])) = None.
Proof.
  induction x as [|b x IH]; intros k Hk.
  - cbn in Hk. replace k with O by lia. reflexivity.
  - cbn [marked flat_map app] in *. fold (marked x) in *. destruct k as [|[|k]]; [reflexivity|reflexivity|]. cbn [firstn unmarked]. rewrite IH; [reflexivity|]. cbn [length] in Hk. lia.
Qed.
Lemma toy_zstd : zstd_ok toy_frame toy_content 40.
Proof.
  split.
  - intros level x n Hx Hn. cbn. rewrite unmark by exact Hx. destruct (Z.leb_spec (size_of x) n); [reflexivity|lia].
  - intros level x. eexists. split; [reflexivity|]. constructor; [reflexivity|]. apply Forall_app. split; [|constructor; [reflexivity|constructor]].
    induction x as [|b x IH]; constructor; [reflexivity|]. constructor; [apply N.mod_lt; discriminate|exact IH].
  - intros level x [|k] n Hk; [reflexivity|]. cbn [toy_frame firstn toy_content]. rewrite unmark_cut; [reflexivity|]. cbn [toy_frame length] in Hk. lia.
Qed.
Lemma toy_fits : len (toy_frame 0 [7; 8; 9]%N) <= grown 100 (len [7; 8; 9]%N) /\ grown 0 (len [7; 8; 9]%N) < len (toy_frame 0 [7; 8; 9]%N).
Proof. split; vm_compute; [discriminate|reflexivity]. Qed.

(* what is there between a one and a zero, taken at once *)
Definition toy_step (taken data : list N) (room : Z) : option (nat * list N) := Some (length data, removelast (tl data)).
Lemma updated_concat : forall argv past level, lz4_updated (fun _ _ l => l) level past argv = concat argv.
Proof. induction argv as [|l argv IH]; intros past level; [reflexivity|]. cbn [lz4_updated concat]. now rewrite IH. Qed.
Lemma toy_lz4 : lz4_ok (fun _ n => n + 1) (fun _ => [1%N]) (fun _ _ l => l) (fun _ _ => [0%N]) toy_step.
Proof.
  split.
  - intro level. vm_compute. discriminate.
  - intros level past l. lia.
  - intros level argv. vm_compute. discriminate.
  - intros level argv. unfold lz4_frame. rewrite updated_concat. set (x := concat argv).
    exists (fun i j => (i = O /\ j = O) \/ (i = length ([1%N] ++ x ++ [0%N]) /\ j = length x)). split; [auto|]. split.
    + intros i j room [[-> ->]|[-> ->]] Hi Hr; [|lia]. exists (length ([1%N] ++ x ++ [0%N])), x. cbn [skipn firstn]. unfold toy_step. cbn [app tl].
      rewrite removelast_last. split; [reflexivity|]. cbn [length]. rewrite firstn_all. repeat split; cbn; lia.
    + intros j [[E _]|[_ E]]; [discriminate E|exact E].
Qed.
Lemma toy_aes : aes_ok (fun _ _ x => (x, repeat 7%N 16)) (fun _ _ _ c => Some c).
Proof. split; intros; cbn; auto. Qed.

(* the codecs of the file in a release: buffers of their own, zstd for every id *)
Definition zstd_bytes (frame : Z -> list N -> list N) (id : N) (n : nat) (x : list N) : list N :=
  match compression_zstd_compress frame false buf_init 0 [x] with Ok b => b_bytes b | _ => [] end.
Definition zstd_back_bytes (content : list N -> Z -> option (list N)) (id : N) (z : list N) (n : N) : res (list N) :=
  match compression_zstd_decompress content buf_init z (Z.of_N n) with Ok b => Ok (b_bytes b) | Err => Err | UB => UB end.
Definition zstd_source : source := mk_source 60 1 0 true.
Lemma zstd_file : exists frame content magic st l, zstd_ok frame content magic /\
  settings_ok zstd_source /\ stamp_fit st /\ Forall mev_ok l /\ ascending (map fst l) /\
  small (write_file (zstd_bytes frame) (fun _ _ b => b) zstd_source st l) (map fst l) /\
  read_file (zstd_back_bytes content) (fun _ b => Ok b) (write_file (zstd_bytes frame) (fun _ _ b => b) zstd_source st l) = Err.
Proof.
  exists toy_frame, toy_content, 40%N, sample_stamp, sample_events. destruct sample_file_ok as (_ & A & B & _ & C).
  repeat (split; [first [exact toy_zstd|exact A|exact B|exact C|split; reflexivity]|]). split; [|vm_compute; reflexivity].
  vm_compute. repeat split; repeat constructor; discriminate.
Qed.
Lemma aes_short unseal key data : length key = 32%nat -> len data < 32 -> encryption_aes_decrypt unseal key buf_init data = UB.
Proof.
  intros Hk Hd. unfold encryption_aes_decrypt. rewrite Hk. cbn [Nat.eqb negb]. assert (P := len_pos data).
  destruct (reserve_empty 0 (len data) ltac:(lia) ltac:(lia)) as (E & _). unfold buf_init. rewrite E. cbn [bind]. destruct (Z.ltb_spec (len data) 32); [reflexivity|lia].
Qed.
Lemma aes_refused unseal key data : 32 <= len data < 2 ^ 31 ->
  unseal key (firstn 12 data) (firstn 16 (skipn 16 data)) (skipn 32 data) = None -> encryption_aes_decrypt unseal key buf_init data = Err.
Proof.
  intros Hd Hu. unfold encryption_aes_decrypt. destruct (negb _); [reflexivity|]. assert (P := len_pos data).
  destruct (reserve_empty 0 (len data) ltac:(lia) ltac:(lia)) as (E & _). unfold buf_init. rewrite E. cbn [bind].
  destruct (Z.ltb_spec (len data) 32); [lia|]. rewrite Hu. reflexivity.
Qed.
Lemma aes_refused_example : exists unseal (key data : list N), 32 <= len data < 2 ^ 31 /\ length key = 32%nat /\
  unseal key (firstn 12 data) (firstn 16 (skipn 16 data)) (skipn 32 data) = @None (list N).
Proof.
  exists (fun _ _ tag c => if list_eq_dec N.eq_dec tag (repeat 7%N 16) then Some c else None), (repeat 1%N 32), (repeat 5%N 40).
  vm_compute. repeat split; discriminate.
Qed.
Lemma written_example : size_all [[1; 2; 3]; []; [4]; [5; 6; 7; 8; 9]]%N <= 2 ^ 30 /\
  buf_writes buf_init [[1; 2; 3]; []; [4]; [5; 6; 7; 8; 9]]%N = Ok (mk_buf [1; 2; 3; 4; 5; 6; 7; 8; 9]%N 12, 3%nat).
Proof. split; vm_compute; [discriminate|reflexivity]. Qed.
Lemma vprintf_cut : exists b l, len l = 1024 /\ buf_vprintf b l <> buf_write b l.
Proof. exists buf_init, (repeat 1%N 1024). split; [vm_compute; reflexivity|]. intro H. vm_compute in H. discriminate H. Qed.
