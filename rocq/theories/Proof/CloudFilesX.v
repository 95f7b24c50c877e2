(* Concrete partitions: what goes wrong, and the examples of the theorems. *)
From Coq Require Import NArith List Bool.
Import ListNotations.
From Verif Require Import Model.Base Model.CloudFiles Spec.CloudFiles.
Local Open Scope N_scope.

Definition dump (b : bytes) : bytes := 7 :: b.
Definition file1 : bytes := [1; 2; 3; 4].
Definition file2 : bytes := [5; 6].
Definition s3 : setup := mk_setup true true true.
Definition mock : setup := mk_setup true true false.
Definition local : pst := mk_pst (mk_flags true false) (mk_disk (Some file1) None None None None None).
Definition remote : pst := mk_pst (mk_flags false true) (mk_disk None None None (Some (dump file1)) None (Some file1)).
Definition double : pst := mk_pst (mk_flags true true) (mk_disk (Some file1) None None (Some (dump file1)) None (Some file1)).
Lemma settled_local su : settled dump su local (Some file1).
Proof. repeat split; auto; discriminate. Qed.
Lemma settled_remote : settled dump s3 remote (Some file1).
Proof. repeat split; auto; discriminate. Qed.
Lemma settled_double : settled dump s3 double (Some file1).
Proof. repeat split; auto; discriminate. Qed.
Lemma clear_local su : clear su local.
Proof. right. reflexivity. Qed.
Lemma clear_s3 s : clear s3 s.
Proof. now left. Qed.

(* two requests for one partition: neither copy is left *)
Lemma race : exists order,
  let s := weave dump s3 local (map req_actions [RUpload; RRefresh file2]) order in
  part_read s = None /\ p_disk s = empty_disk /\ p_flags s = no_flags.
Proof. exists [0; 1; 0; 1]%nat. vm_compute. auto. Qed.
(* and two refreshes *)
Lemma race2 : exists order,
  let s := weave dump s3 local (map req_actions [RRefresh file2; RRefresh file2]) order in
  part_read s = None /\ p_disk s = empty_disk /\ p_flags s = no_flags.
Proof. exists [0; 0; 0; 0; 1; 0; 1]%nat. vm_compute. auto. Qed.
(* an upload that failed, then a drop of the partition: the database does not open any more *)
Lemma failed_upload : exists n k, happenings dump s3 local [Failed AUpload n k; Done ADropBoth; Restarted] = Err.
Proof. exists 3%nat, 0%nat. vm_compute. reflexivity. Qed.
(* the same when the machine stops in the next refresh *)
Lemma failed_upload_refresh : exists n k m j, happenings dump s3 local [Failed AUpload n k; Stopped (ARefresh file2) m j] = Err.
Proof. exists 3%nat, 0%nat, 2%nat, 0%nat. vm_compute. reflexivity. Qed.
(* a refresh that failed, then an upload *)
Lemma failed_refresh : exists n k, happenings dump s3 local [Failed (ARefresh file2) n k; Done AUpload; Restarted] = Err.
Proof. exists 1%nat, 1%nat. vm_compute. reflexivity. Qed.
(* the object could not be removed: the partition says it is in the cloud, the file that says so is
   gone. When the local file is dropped the next start does not know of the partition. *)
Lemma failed_remove : exists n k s s', happenings dump s3 double [Failed ADropCloud n k; Done AUpload; Done ADropUploaded] = Ok s /\
  part_read s = Some file1 /\ happen dump s3 s Restarted = Ok s' /\ p_flags s' = no_flags /\ part_read s' = None.
Proof. exists 1%nat, 0%nat. do 2 eexists. split; [vm_compute; reflexivity|]. split; [vm_compute; reflexivity|]. split; [vm_compute; reflexivity|]. vm_compute. auto. Qed.
(* stopped between the removal of the .cloud file and of the object: the object stays for ever *)
Lemma stray : exists n k s, happenings dump s3 remote [Stopped ADropBoth n k] = Ok s /\ p_flags s = no_flags /\ d_object (p_disk s) = Some file1.
Proof. exists 1%nat, 0%nat. eexists. split; [vm_compute; reflexivity|]. vm_compute. auto. Qed.
(* with the mock cloud it spoils the next upload *)
Lemma mock_stray : exists i n k s, turns dump mock local [Whole RUpload; Cut (RRefresh file2) i n k; Whole (RRefresh file2)] = Ok s /\
  p_flags s = mk_flags false true /\ part_read s = Some (file2 ++ [3; 4]).
Proof. exists 1%nat, 1%nat, 0%nat. eexists. split; [vm_compute; reflexivity|]. vm_compute. auto. Qed.
