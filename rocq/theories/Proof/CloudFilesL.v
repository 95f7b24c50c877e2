(* One action on a partition: every point at which it may be cut, and what the next start finds. *)
From Coq Require Import NArith Arith List Bool Lia.
Import ListNotations.
From Verif Require Import Model.Base Model.CloudFiles Spec.CloudFiles.

Lemma over_nil b : over b [] = b.
Proof. unfold over. rewrite skipn_nil. apply app_nil_r. Qed.

Section Index.
Variable idx : bytes -> bytes.

Ltac explode s c :=
  destruct s as [[[|] [|]] [di dn dc dl dk dob]]; destruct c as [b|]; cbn in *;
  repeat match goal with
  | H : _ /\ _ |- _ => destruct H
  | H : _ \/ _ |- _ => destruct H
  | H : true = true -> _ |- _ => specialize (H eq_refl)
  | H : false = false -> _ |- _ => specialize (H eq_refl)
  end; subst; try discriminate.

Ltac fin := cbn; rewrite ?over_nil; repeat split; intros; auto; try discriminate.
Ltac points n := do 6 (try (destruct n as [|n])).

(* the disk after n operations and k bytes of a stopped action *)
Lemma stopped su s c a n k : settled idx su s c -> clear su s ->
  exists s', recover (disk_upto idx su a n k s) = Ok s' /\
    (settled idx su s' c \/ settled idx su s' (contents_after a (in_id (p_flags s)) (in_cloud (p_flags s)) c)).
Proof.
  intros Hs Hc. destruct su as [[|] [|] [|]]; unfold settled, tidy, clear in *;
  explode s c; destruct a; unfold disk_upto, act_plan; cbn;
  points n; unfold fops_upto; cbn; (eexists; split; [reflexivity|]); first [left; solve [fin] | right; solve [fin]].
Qed.
(* a copy is there at every point of an action that does not remove the last one *)
Lemma every_point su s c a n k : settled idx su s c -> clear su s ->
  match c, contents_after a (in_id (p_flags s)) (in_cloud (p_flags s)) c with
  | Some b, Some b' => holds idx (disk_upto idx su a n k s) b \/ holds idx (disk_upto idx su a n k s) b'
  | _, _ => True
  end.
Proof.
  intros Hs Hc. destruct su as [[|] [|] [|]]; unfold settled, tidy, clear, holds in *;
  explode s c; destruct a; unfold disk_upto, act_plan; cbn; auto;
  points n; unfold fops_upto; cbn; rewrite ?over_nil; auto 8.
Qed.
(* an action that is let be *)
Lemma acted su s c a : settled idx su s c -> clear su s ->
  settled idx su (act idx su a s) (contents_after a (in_id (p_flags s)) (in_cloud (p_flags s)) c) /\ clear su (act idx su a s).
Proof.
  intros Hs Hc. destruct su as [[|] [|] [|]]; unfold settled, tidy, clear in *;
  explode s c; destruct a; unfold act, act_plan; cbn; rewrite ?over_nil; (split; [solve [fin]|]); first [left; reflexivity|right; intros; solve [auto; discriminate]].
Qed.
(* whatever was left of attempts before *)
Lemma leftovers su s c x : settled idx su s c -> clear su s -> su_cloud su = true ->
  (in_id (p_flags s) = true -> in_cloud (p_flags s) = false ->
   let s' := act idx su AUpload (mk_pst (p_flags s) (set SCinc x (p_disk s))) in settled idx su s' c /\ p_flags s' = mk_flags true true) /\
  (in_id (p_flags s) = false -> in_cloud (p_flags s) = true ->
   let s' := act idx su ADownload (mk_pst (p_flags s) (set SInc x (p_disk s))) in settled idx su s' c /\ p_flags s' = mk_flags true true).
Proof.
  intros Hs Hc Hu. destruct su as [[|] [|] [|]]; try discriminate Hu; unfold settled, tidy, clear in *;
  explode s c; unfold act, act_plan; cbn; rewrite ?over_nil; (split; intros; try discriminate; (split; [solve [fin]|reflexivity])).
Qed.
End Index.
