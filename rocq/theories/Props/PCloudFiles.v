(* C57, C72, C73: the local and the cloud copy of a partition. *)
From Coq Require Import NArith List Bool.
Import ListNotations.
From Verif Require Import Model.Base Model.CloudFiles Spec.CloudFiles Proof.CloudFilesL Proof.CloudFilesH Proof.CloudFilesW Proof.CloudFilesX.

(* the machine stops after n operations and k bytes of the next: the next start opens the database and
   finds the contents of before or of after the action *)
Theorem C57_stopped : forall idx su s c a n k, settled idx su s c -> clear su s ->
  exists s', happen idx su s (Stopped a n k) = Ok s' /\
    (settled idx su s' c \/ settled idx su s' (contents_after a (in_id (p_flags s)) (in_cloud (p_flags s)) c)).
Proof. exact stopped. Qed.
Print Assumptions C57_stopped.
(* at each of these points there is a complete copy, unless the action removes the last one *)
Theorem C57_every_point : forall idx su s c a n k, settled idx su s c -> clear su s ->
  match c, contents_after a (in_id (p_flags s)) (in_cloud (p_flags s)) c with
  | Some b, Some b' => holds idx (disk_upto idx su a n k s) b \/ holds idx (disk_upto idx su a n k s) b'
  | _, _ => True
  end.
Proof. exact every_point. Qed.
Print Assumptions C57_every_point.
Example C57_stopped_example : settled dump s3 local (Some file1) /\ clear s3 local /\
  disk_upto dump s3 AUpload 2 3 local = mk_disk (Some file1) None None None (Some [7; 1; 2]%N) None /\
  happen dump s3 local (Stopped AUpload 2 3) = Ok local.
Proof. exact (conj (settled_local s3) (conj (clear_local s3) (conj eq_refl eq_refl))). Qed.
(* an action that runs to its end *)
Theorem C57_acted : forall idx su s c a, settled idx su s c -> clear su s ->
  settled idx su (act idx su a s) (contents_after a (in_id (p_flags s)) (in_cloud (p_flags s)) c) /\ clear su (act idx su a s).
Proof. exact acted. Qed.
Print Assumptions C57_acted.
(* what is read, and the file from which a start reads the index *)
Theorem C57_read : forall idx su s c, settled idx su s c ->
  part_read s = c /\ part_opened s = (if in_id (p_flags s) then c else match c with Some b => Some (idx b) | None => None end).
Proof. exact read. Qed.
Print Assumptions C57_read.
Example C57_read_example : settled dump s3 remote (Some file1) /\ part_read remote = Some file1 /\ part_opened remote = Some (dump file1).
Proof. exact (conj settled_remote (conj eq_refl eq_refl)). Qed.
(* requests one after another, each cut anywhere or not at all: the database always opens, and always
   with the contents of the last refresh that came to its point of no return *)
Theorem C57_requests : forall idx su l s c, settled idx su s c -> clear su s -> su_replaces su = true \/ Forall whole l ->
  exists s' c', turns idx su s l = Ok s' /\ settled idx su s' c' /\ turns_leave l c c'.
Proof. exact all_turns. Qed.
Print Assumptions C57_requests.
Example C57_requests_example : settled dump s3 local (Some file1) /\ clear s3 local /\
  turns dump s3 local [Whole RUpload; Cut (RRefresh file2) 2 4 0; Cut RUpload 0 3 0; Whole RUpload; Cut RDownload 0 2 1] =
    Ok (mk_pst (mk_flags false true) (mk_disk None None None (Some (dump file2)) None (Some file2))).
Proof. exact (conj (settled_local s3) (conj (clear_local s3) eq_refl)). Qed.
(* the mock cloud writes over what is there: an object that was left spoils the next one *)
Theorem C57_mock_refuted : exists i n k s, turns dump mock local [Whole RUpload; Cut (RRefresh file2) i n k; Whole (RRefresh file2)] = Ok s /\
  p_flags s = mk_flags false true /\ part_read s = Some (file2 ++ [3; 4]%N).
Proof. exact mock_stray. Qed.
Print Assumptions C57_mock_refuted.
(* an object may be left in the cloud for ever *)
Theorem C57_stray_refuted : exists n k s, happenings dump s3 remote [Stopped ADropBoth n k] = Ok s /\ p_flags s = no_flags /\ d_object (p_disk s) = Some file1.
Proof. exact stray. Qed.
Print Assumptions C57_stray_refuted.

(* C72: several requests for one partition at once. Their actions may come in any order as long as the
   local file is never dropped by itself, or there is no refresh among them. *)
Theorem C72_workers : forall idx su rs, su_drop_local su = false \/ Forall (fun r => ~ refreshes r) rs ->
  forall order s c, settled idx su s c -> clear su s ->
  exists c', settled idx su (weave idx su s (map req_actions rs) order) c' /\
    (c' = c \/ exists b, In (RRefresh b) rs /\ c' = Some b) /\ (c <> None -> c' <> None).
Proof. exact workers. Qed.
Print Assumptions C72_workers.
Example C72_workers_example : let su := mk_setup true false true in
  settled dump su local (Some file1) /\ clear su local /\
  p_flags (weave dump su local (map req_actions [RUpload; RRefresh file2; RDownload]) [0; 1; 0; 1; 2; 1; 1]%nat) = mk_flags true true /\
  part_read (weave dump su local (map req_actions [RUpload; RRefresh file2; RDownload]) [0; 1; 0; 1; 2; 1; 1]%nat) = Some file2.
Proof. exact (conj (settled_local _) (conj (clear_local _) (conj eq_refl eq_refl))). Qed.
(* else both copies may go: an upload and a refresh, two refreshes *)
Theorem C72_refuted : exists order,
  let s := weave dump s3 local (map req_actions [RUpload; RRefresh file2]) order in
  part_read s = None /\ p_disk s = empty_disk /\ p_flags s = no_flags.
Proof. exact race. Qed.
Print Assumptions C72_refuted.
Theorem C72_refreshes_refuted : exists order,
  let s := weave dump s3 local (map req_actions [RRefresh file2; RRefresh file2]) order in
  part_read s = None /\ p_disk s = empty_disk /\ p_flags s = no_flags.
Proof. exact race2. Qed.
Print Assumptions C72_refreshes_refuted.

(* C73: an action that fails without a stop of the machine. Done again, it does all that was asked. *)
Theorem C73_again : forall idx su s c a n k, settled idx su s c -> clear su s -> (forall b, a <> ARefresh b) ->
  exists s', happenings idx su s [Failed a n k; Done a] = Ok s' /\
    settled idx su s' (contents_after a (in_id (p_flags s)) (in_cloud (p_flags s)) c).
Proof. exact again. Qed.
Print Assumptions C73_again.
Example C73_again_example : settled dump s3 double (Some file1) /\ clear s3 double /\
  happenings dump s3 double [Failed ADropCloud 1 0] = Ok (mk_pst (mk_flags true true) (mk_disk (Some file1) None None None None (Some file1))) /\
  happenings dump s3 double [Failed ADropCloud 1 0; Done ADropCloud] = Ok local.
Proof. exact (conj settled_double (conj (clear_s3 _) (conj eq_refl eq_refl))). Qed.
(* Whatever attempts before left under the name an upload or a download writes to. *)
Theorem C73_leftovers : forall idx su s c x, settled idx su s c -> clear su s -> su_cloud su = true ->
  (in_id (p_flags s) = true -> in_cloud (p_flags s) = false ->
   let s' := act idx su AUpload (mk_pst (p_flags s) (set SCinc x (p_disk s))) in settled idx su s' c /\ p_flags s' = mk_flags true true) /\
  (in_id (p_flags s) = false -> in_cloud (p_flags s) = true ->
   let s' := act idx su ADownload (mk_pst (p_flags s) (set SInc x (p_disk s))) in settled idx su s' c /\ p_flags s' = mk_flags true true).
Proof. exact leftovers. Qed.
Print Assumptions C73_leftovers.
Example C73_leftovers_example : settled dump s3 local (Some file1) /\ clear s3 local /\ settled dump s3 remote (Some file1) /\ clear s3 remote /\
  p_disk (act dump s3 AUpload (mk_pst (p_flags local) (set SCinc (Some (file1 ++ file1 ++ file1)) (p_disk local)))) = p_disk double /\
  p_disk (act dump s3 ADownload (mk_pst (p_flags remote) (set SInc (Some (file1 ++ file1)) (p_disk remote)))) = p_disk double.
Proof. repeat split; auto; try discriminate; try (right; reflexivity); left; reflexivity. Qed.
(* done otherwise: an upload that failed, then DROP: the database does not open any more *)
Theorem C73_refuted : exists n k, happenings dump s3 local [Failed AUpload n k; Done ADropBoth; Restarted] = Err.
Proof. exact failed_upload. Qed.
Print Assumptions C73_refuted.
(* an upload that failed, then the machine stops in a refresh *)
Theorem C73_refresh_refuted : exists n k m j, happenings dump s3 local [Failed AUpload n k; Stopped (ARefresh file2) m j] = Err.
Proof. exact failed_upload_refresh. Qed.
Print Assumptions C73_refresh_refuted.
(* a refresh that failed, then an upload *)
Theorem C73_upload_refuted : exists n k, happenings dump s3 local [Failed (ARefresh file2) n k; Done AUpload; Restarted] = Err.
Proof. exact failed_refresh. Qed.
Print Assumptions C73_upload_refuted.
(* the object could not be removed, the local file is dropped as it is in the cloud: the partition is
   read as before, and gone after the next start *)
Theorem C73_remove_refuted : exists n k s s', happenings dump s3 double [Failed ADropCloud n k; Done AUpload; Done ADropUploaded] = Ok s /\
  part_read s = Some file1 /\ happen dump s3 s Restarted = Ok s' /\ p_flags s' = no_flags /\ part_read s' = None.
Proof. exact failed_remove. Qed.
Print Assumptions C73_remove_refuted.
