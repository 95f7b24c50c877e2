(* Texts whose strings can always be carried. *)
From Coq Require Import NArith ZArith String List Bool Lia.
Import ListNotations.
From Verif Require Import Model.Base Model.Lex Model.Parse Model.Session Spec.Value Spec.JsonText Spec.Units Spec.Command Spec.Session Proof.JsonL.

Definition part_of (s r : list byte) : Prop := (forall P : byte -> Prop, Forall P s -> Forall P r) /\ List.length r <= List.length s.
Lemma part_refl s : part_of s s.
Proof. split; auto. Qed.
Lemma part_trans a b c : part_of a b -> part_of b c -> part_of a c.
Proof. intros [A L] [B M]. split; [auto|lia]. Qed.
Lemma part_cons b s : part_of (b :: s) s.
Proof. split; [intros P F; inversion F; assumption|cbn; lia]. Qed.
Lemma part_app a b : part_of (a ++ b) b.
Proof. split; [intros P F; apply Forall_app in F; apply F|rewrite app_length; lia]. Qed.
Lemma part_pre a b : part_of (a ++ b) a.
Proof. split; [intros P F; apply Forall_app in F; apply F|rewrite app_length; lia]. Qed.
Lemma part_skipn n s : part_of s (skipn n s).
Proof. rewrite <- (firstn_skipn n s) at 1. apply part_app. Qed.
Lemma skips_part s r : skips s r -> part_of s r.
Proof.
  induction 1 as [r H|b s r H _ IH|s t r H _ IH|s H].
  - apply part_refl.
  - apply (part_trans _ s); [apply part_cons|exact IH].
  - apply (part_trans _ t); [|exact IH]. apply (part_trans _ (s ++ 10%N :: t)); [apply part_cons|]. apply (part_trans _ (10%N :: t)); [apply part_app|apply part_cons].
  - split; [constructor|cbn; lia].
Qed.
Definition inside (text : list byte) (t : token) : Prop := match t_val t with TStr s _ => part_of text s | TInt n => t_id t = KINT \/ n = 0%N | _ => True end.
Section PLAIN.
Variable strtod : list byte -> option (N * nat).
Lemma token_part s t r : token_at strtod s t r -> part_of s r /\ inside s t.
Proof.
  destruct 1 as [b r _ _ _ _|b w r id _ _ _ _|ds r _ _ _|ds b r v n _ _ _ _|q s r e _ _ _]; unfold inside; cbn [t_val t_id].
  - split; [apply part_cons|auto].
  - split; [apply (part_trans _ (w ++ r)); [apply part_cons|apply part_app]|]. exact (part_pre (b :: w) r).
  - split; [apply part_app|auto].
  - split; [apply part_skipn|exact I].
  - split; [|apply (part_trans _ (s ++ q :: r)); [apply part_cons|apply part_pre]]. apply (part_trans _ (s ++ q :: r)); [apply part_cons|]. apply (part_trans _ (q :: r)); [apply part_app|apply part_cons].
Qed.
Lemma tokens_inside s ts : tokens strtod s ts -> Forall (inside s) ts.
Proof.
  induction 1 as [s H|s s' t r ts H T _ IH]; [constructor|]. apply skips_part in H. apply token_part in T. destruct T as [T1 T2]. constructor.
  - unfold inside in *. destruct (t_val t); auto. apply (part_trans _ s'); assumption.
  - revert IH. apply Forall_impl. intros x Hx. unfold inside in *. destruct (t_val x); auto. apply (part_trans _ s'); [exact H|]. apply (part_trans _ r); assumption.
Qed.
Lemma units_inside text : forall n ts, List.length ts <= n -> Forall (inside text) ts -> Forall (inside text) (with_units ts).
Proof.
  induction n as [|n IH]; intros [|t us] L F; cbn [List.length] in L; try (constructor; fail); [lia|]. apply Forall_cons_iff in F. destruct F as [Ft F].
  cbn [with_units]. destruct (t_id t =? KINT)%N; [|constructor; [exact Ft|apply IH; [lia|exact F]]].
  destruct (t_val t); try (constructor; [exact Ft|apply IH; [lia|exact F]]). destruct us as [|u us]; [constructor; [exact Ft|constructor]|].
  destruct (factor (t_id u)); [|constructor; [exact Ft|apply IH; [cbn in *; lia|exact F]]].
  constructor; [left; reflexivity|apply IH; [cbn in L; lia|apply Forall_cons_iff in F; apply F]].
Qed.
Theorem plain_carried text ts : tokens strtod text ts -> plain text -> (N.of_nat (List.length text) < 2 ^ 31)%N ->
  (forall n, In (mk_tok KINT (TInt n)) (with_units ts) -> (n < 2 ^ 63 - 48)%N) ->
  Forall token_carried (with_units ts).
Proof.
  intros T P L N. apply tokens_inside in T. apply (units_inside text (List.length ts)) in T; [|lia]. rewrite Forall_forall in *. intros t It. specialize (T t It).
  unfold token_carried, inside in *. destruct t as [id v]. cbn [t_val t_id] in *. destruct v; auto.
  - destruct T as [->| ->]; [apply N, It|reflexivity].
  - destruct T as [T1 T2]. split; [apply plain_closed, T1, P|lia].
Qed.
End PLAIN.
