From Coq Require Import NArith ZArith Arith List Bool Lia.
Import ListNotations.
From Verif Require Export Spec.FileLimits.
From Verif Require Import Model.Base Model.Event Model.Crc Model.Codec Model.File Model.Writer
  Spec.Order Spec.Checksum Spec.Files Spec.Regions Spec.Codecs Proof.OrderL Proof.PartIterL Proof.CrcL Proof.CodecL Proof.WriterL Proof.FileL
  Proof.FileW Proof.FileR Proof.FileC.

Lemma round_trip c d e k s st l : codecs_ok c d e k -> settings_ok s -> stamp_fit st ->
  Forall mev_ok l -> small (write_file c e s st l) (map fst l) ->
  exists ix regions, read_file d k (write_file c e s st l) = Ok (ix, regions) /\
    concat regions = map fst l /\
    ix_min ix = st_min st /\ ix_max ix = st_max st /\ ix_refreshes ix = st_refreshes st /\
    ix_time_create ix = st_time_create st /\ ix_time_refresh ix = st_time_refresh st /\
    ix_lsn ix = st_lsn st.
Proof.
  intros CO [H1 H2] Hst Hl Hs.
  destruct (read_written c d e k CO s H1 H2 l st Hl Hst Hs) as
    (ix & data & R & _ & _ & E1 & E2 & E3 & E4 & E5 & E6 & _).
  exists ix, (cut_regions (limit s) (strip l)). split; auto. split; auto 8.
  apply (cut_all _ _ _ (proj1 (cut_statement (limit s) (strip l) (proj1 Hs)))).
Qed.

Lemma regions_of_file c d e k s st l : codecs_ok c d e k -> settings_ok s -> stamp_fit st ->
  Forall mev_ok l -> small (write_file c e s st l) (map fst l) -> ascending (map fst l) ->
  exists ix data regions, read_file d k (write_file c e s st l) = Ok (ix, regions) /\
    index_open (write_file c e s st l) = Ok ix /\
    index_read d k (write_file c e s st l) ix = Ok data /\
    cut (Z.to_N (so_region_size s mod 2 ^ 32)) (map fst l) regions /\ ids_apart regions /\
    ix_regions ix = N.of_nat (length regions) /\
    forall i r, nth_error regions i = Some r ->
      exists t, index_get data i = Some t /\ ir_events t = N.of_nat (length r) /\
        (exists x, In x r /\ ev_id x = ir_min t) /\ (exists x, In x r /\ ev_id x = ir_max t) /\
        forall x, In x r -> (ir_min t <= ev_id x <= ir_max t)%N.
Proof.
  intros CO [H1 H2] Hst Hl Hs Ha.
  destruct (read_written c d e k CO s H1 H2 l st Hl Hst Hs) as
    (ix & data & R & R1 & R2 & _ & _ & _ & _ & _ & _ & R3 & R4).
  destruct (write_file_ok (limit s) (strip l) Ha (proj1 Hs)) as (C & F & A).
  exists ix, data, (cut_regions (limit s) (strip l)). repeat (split; auto).
  intros i r Hi. destruct (R4 i r Hi) as (t & T1 & T2 & T3 & T4). exists t.
  split; auto. split; auto.
  assert (Hne : r <> []).
  { destruct F as [_ F]. rewrite Forall_forall in F. apply F. eapply nth_error_In; eauto. }
  assert (Hr : ascending r).
  { destruct F as [F _]. eapply ascending_concat_region; eauto. }
  destruct r as [|x0 r]; [contradiction|]. rewrite T3, T4.
  split; [exists x0; simpl; auto|]. split; [apply last_id_in; auto|].
  intros x Hx. split; [|apply last_id_max; auto].
  destruct Hx as [->|Hx]; [lia|]. inversion Hr; subst. rewrite Forall_forall in *.
  apply ev_lt_ids. auto.
Qed.

Lemma writer_passes c d e k s st l : codecs_ok c d e k -> settings_ok s -> stamp_fit st ->
  Forall mev_ok l -> small (write_file c e s st l) (map fst l) ->
  exists ix, index_open (write_file c e s st l) = Ok ix.
Proof.
  intros CO [H1 H2] Hst Hl Hs.
  destruct (read_written c d e k CO s H1 H2 l st Hl Hst Hs) as (ix & data & _ & R & _). eauto.
Qed.

(* codecs of the examples: prefix a tag byte *)
Definition tagged (id : N) (n : nat) (b : list byte) : list byte := ((id + N.of_nat n) mod 256)%N :: b.
Definition untag (b : list byte) : res (list byte) := match b with _ :: t => Ok t | [] => Err end.
Lemma tagged_ok : codecs_ok tagged (fun _ b _ => untag b) tagged (fun _ b => untag b).
Proof.
  constructor; intros; try reflexivity; try discriminate; try (constructor; auto; apply N.mod_lt; discriminate).
Qed.

Definition sample_source : source := mk_source 60 1 2 true.
Definition sample_stamp : stamp := mk_stamp 0 1000 3 7 8 42.
Definition sample_events : list mevent :=
  [(mk_event 5 0 [97%N] [1;2;3]%N, [9;9;9]%N); (mk_event 5 0 [97;98]%N [4]%N, [1;2;3]%N);
   (mk_event 6 0 [] [5;5;5;5]%N, []); (mk_event 9 1 [120%N] [], [0;0]%N); (mk_event 11 0 [] [6%N], [])].
Lemma sample_file_ok :
  settings_ok sample_source /\ stamp_fit sample_stamp /\ Forall mev_ok sample_events /\
  small (write_file tagged tagged sample_source sample_stamp sample_events)
        (map fst sample_events) /\ ascending (map fst sample_events).
Proof.
  split; [split; reflexivity|]. split; [repeat split|].
  split.
  { repeat (apply Forall_cons; [repeat split; try (simpl; lia); repeat constructor|]). constructor. }
  split.
  { unfold small. split; [vm_compute; reflexivity|]. split; [vm_compute; reflexivity|].
    vm_compute. reflexivity. }
  unfold ascending. repeat constructor; vm_compute; auto.
Qed.
Lemma sample_file_regions :
  match read_file (fun _ b _ => untag b) (fun _ b => untag b)
    (write_file tagged tagged sample_source sample_stamp sample_events) with
  | Ok (ix, rs) => ix_lsn ix = 42%N /\ map (map ev_id) rs = [[5; 5]; [6; 9]; [11]]%N
  | _ => False
  end.
Proof. vm_compute. auto. Qed.
Lemma sample_footer : exists pre x post ix, bytes (pre ++ x ++ post) /\ length x = 4 /\
  length (x ++ post) <= 130 /\ index_open (pre ++ x ++ post) = Ok ix.
Proof.
  set (f := write_file tagged tagged sample_source sample_stamp sample_events).
  exists (firstn (length f - 128) f), (firstn 4 (skipn (length f - 128) f)), (skipn (length f - 124) f).
  assert (E : firstn (length f - 128) f ++ firstn 4 (skipn (length f - 128) f) ++ skipn (length f - 124) f = f)
    by (vm_compute; reflexivity).
  rewrite E. unfold bytes. eexists. split; [|split; [|split]].
  - apply Forall_forall. intros x Hx. apply N.ltb_lt. revert x Hx. apply forallb_forall. vm_compute. reflexivity.
  - vm_compute. reflexivity.
  - vm_compute. repeat constructor.
  - vm_compute. reflexivity.
Qed.
