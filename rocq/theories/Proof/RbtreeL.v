From Coq Require Import NArith ZArith List Bool Sorted Lia Arith.
Import ListNotations.
From Verif Require Import Model.Base Model.Rbtree.

Section Rb.
Local Arguments rotate_left : simpl never.
Local Arguments rotate_right : simpl never.
Local Arguments up : simpl never.
Context {A : Type}.
Implicit Types (t n : tree A) (p : path A) (f : frame A).

(* in-order contents to the left and right of the focus *)
Fixpoint ctx_l p : list A :=
  match p with
  | [] => []
  | f :: p' =>
      match f_side f with
      | L => ctx_l p'
      | R => ctx_l p' ++ elements (f_sib f) ++ [f_elem f]
      end
  end.
Fixpoint ctx_r p : list A :=
  match p with
  | [] => []
  | f :: p' =>
      match f_side f with
      | L => f_elem f :: elements (f_sib f) ++ ctx_r p'
      | R => ctx_r p'
      end
  end.

Lemma elements_up f t :
  elements (up f t) =
  match f_side f with
  | L => elements t ++ f_elem f :: elements (f_sib f)
  | R => elements (f_sib f) ++ f_elem f :: elements t
  end.
Proof. unfold up. destruct (f_side f); reflexivity. Qed.

Lemma elements_plug p t : elements (plug p t) = ctx_l p ++ elements t ++ ctx_r p.
Proof.
  revert t; induction p as [|f p IH]; intros t; simpl.
  - rewrite app_nil_r; auto.
  - rewrite IH, elements_up. destruct (f_side f); simpl; rewrite <- ?app_assoc; simpl;
      rewrite <- ?app_assoc; auto.
Qed.

Lemma elements_set_color c t : elements (set_color c t) = elements t.
Proof. destruct t; auto. Qed.

Lemma rotate_left_elements t t' : rotate_left t = Some t' -> elements t' = elements t.
Proof.
  destruct t as [|c a x [|c' b y d]]; unfold rotate_left; try discriminate.
  intros H; inversion H; subst; simpl. rewrite <- app_assoc; auto.
Qed.
Lemma rotate_right_elements t t' : rotate_right t = Some t' -> elements t' = elements t.
Proof.
  destruct t as [|c [|c' a x b] y d]; unfold rotate_right; try discriminate.
  intros H; inversion H; subst; simpl. rewrite <- app_assoc; auto.
Qed.

Lemma obind_some {B C} (o : option B) (f : B -> option C) c :
  obind o f = Some c -> exists b, o = Some b /\ f b = Some c.
Proof. destruct o; simpl; [eauto|discriminate]. Qed.

Lemma set_fixup_elements : forall k p n t, length p <= k ->
  set_fixup p n = Some t -> elements t = ctx_l p ++ elements n ++ ctx_r p.
Proof.
  induction k; intros p n t Hk H.
  - destruct p; [|simpl in Hk; lia]. simpl in H. inversion H. subst.
    rewrite elements_set_color. simpl. rewrite app_nil_r; auto.
  - destruct p as [|fp p1].
    { simpl in H. inversion H. subst. rewrite elements_set_color. simpl. rewrite app_nil_r; auto. }
    simpl in H. destruct (f_color fp).
    2:{ inversion H; subst. rewrite elements_set_color, elements_plug, elements_up. simpl.
        destruct (f_side fp); rewrite <- ?app_assoc; simpl; rewrite <- ?app_assoc; auto. }
    destruct p1 as [|fg p2]; [discriminate|].
    simpl in Hk.
    destruct (f_side fg) eqn:Hg.
    + destruct (is_red (f_sib fg)).
      * apply IHk in H; [|lia]. rewrite H. simpl. rewrite !elements_set_color, elements_up, Hg.
        destruct (f_side fp); simpl; rewrite <- ?app_assoc; simpl; rewrite <- ?app_assoc; auto.
      * apply obind_some in H as (pt & H1 & H). apply obind_some in H as (tt & H2 & H).
        inversion H; subst; clear H. rewrite elements_set_color, elements_plug.
        apply rotate_right_elements in H2. rewrite H2. simpl. rewrite elements_set_color.
        assert (elements pt = elements (up fp n)) as ->.
        { destruct (f_side fp); [inversion H1; auto|]. apply rotate_left_elements in H1; auto. }
        rewrite elements_up, Hg.
        destruct (f_side fp); simpl; rewrite <- ?app_assoc; simpl; rewrite <- ?app_assoc; auto.
    + destruct (is_red (f_sib fg)).
      * apply IHk in H; [|lia]. rewrite H. simpl. rewrite !elements_set_color, elements_up, Hg.
        destruct (f_side fp); simpl; rewrite <- ?app_assoc; simpl; rewrite <- ?app_assoc; auto.
      * apply obind_some in H as (pt & H1 & H). apply obind_some in H as (tt & H2 & H).
        inversion H; subst; clear H. rewrite elements_set_color, elements_plug.
        apply rotate_left_elements in H2. rewrite H2. simpl. rewrite elements_set_color.
        assert (elements pt = elements (up fp n)) as ->.
        { destruct (f_side fp); [|inversion H1; auto]. apply rotate_right_elements in H1; auto. }
        rewrite elements_up, Hg.
        destruct (f_side fp); simpl; rewrite <- ?app_assoc; simpl; rewrite <- ?app_assoc; auto.
Qed.

(* --- red-black invariant --- *)
Inductive rb : tree A -> color -> nat -> Prop :=
| rb_leaf : rb Leaf Black 0
| rb_red l x r h : rb l Black h -> rb r Black h -> rb (Node Red l x r) Red h
| rb_black l x r c1 c2 h : rb l c1 h -> rb r c2 h -> rb (Node Black l x r) Black (S h).

(* a path that accepts a subtree of the given root colour and black height *)
Inductive rbp : path A -> color -> nat -> Prop :=
| rbp_nil h : rbp [] Black h
| rbp_red s x sib p h : rb sib Black h -> rbp p Red h ->
    rbp (mk_frame s Red x sib :: p) Black h
| rbp_black s x sib c c' p h : rb sib c' h -> rbp p Black (S h) ->
    rbp (mk_frame s Black x sib :: p) c h.

Lemma rbp_weaken p c h : rbp p c h -> rbp p Black h.
Proof. intros H; inversion H; subst; econstructor; eauto. Qed.

Lemma plug_rb p : forall t c h, rb t c h -> rbp p c h -> exists h', rb (plug p t) Black h'.
Proof.
  induction p as [|f p IH]; intros t c h Ht Hp.
  - inversion Hp; subst. simpl; eauto.
  - inversion Hp; subst; simpl.
    + destruct s; eapply IH; try eassumption; unfold up; simpl; constructor; auto.
    + destruct s; eapply IH; try eassumption; unfold up; simpl; econstructor; eauto.
Qed.

Lemma plug_rb_inv p : forall t h, rb (plug p t) Black h ->
  exists c h', rb t c h' /\ rbp p c h'.
Proof.
  induction p as [|f p IH]; intros t h H.
  - simpl in H. do 2 eexists; split; eauto. constructor.
  - simpl in H. apply IH in H as (c & h' & H1 & H2).
    destruct f as [s fc x sib]. unfold up in H1. simpl in H1.
    destruct s, fc; inversion H1; subst; do 2 eexists; (split; [eassumption|]);
      econstructor; eauto.
Qed.

Definition wf (t : tree A) : Prop := exists h, rb t Black h.

Lemma is_red_rb t c h : rb t c h -> is_red t = match c with Red => true | Black => false end.
Proof. intros H; inversion H; auto. Qed.

Lemma rb_set_black t c h : rb t c h ->
  exists h', rb (set_color Black t) Black h' /\ (c = Red -> h' = S h) /\ (c = Black -> h' = h).
Proof.
  intros H; inversion H; subst; simpl.
  - exists 0; split; [constructor|split; congruence].
  - exists (S h); split; [econstructor; eauto|split; congruence].
  - exists (S h0); split; [econstructor; eauto|split; congruence].
Qed.

Lemma set_color_black_id t h : rb t Black h -> set_color Black t = t.
Proof. intros H; inversion H; auto. Qed.

Lemma plug_wf p t h : rb t Black h -> rbp p Black h -> wf (set_color Black (plug p t)).
Proof.
  intros H1 H2. destruct (plug_rb p t _ _ H1 H2) as (h' & H).
  exists h'. rewrite (set_color_black_id _ _ H). exact H.
Qed.

Lemma set_fixup_rb : forall k p n h l x r, length p <= k ->
  n = Node Red l x r -> rb l Black h -> rb r Black h -> rbp p Black h ->
  exists t, set_fixup p n = Some t /\ wf t.
Proof.
  induction k; intros p n h l x r Hk Hn Hl Hr Hp; subst n.
  - destruct p; [|simpl in Hk; lia]. simpl. eexists; split; [reflexivity|].
    eexists. econstructor; eauto.
  - inversion Hp; subst.
    + simpl. eexists; split; [reflexivity|]. eexists. econstructor; eauto.
    + (* red parent *)
      rename H into Hsib. rename H0 into Hp1. simpl in Hk.
      inversion Hp1; subst. rename H into Hu. rename H0 into Hp2.
      simpl in Hk.
      destruct s0 eqn:Es0.
      * simpl. rewrite (is_red_rb _ _ _ Hu).
        destruct c'.
        -- (* red uncle *)
           inversion Hu; subst.
           destruct s; unfold up; simpl;
           (eapply IHk; [|reflexivity| | |]); try lia; try eassumption;
             simpl; econstructor; eauto; econstructor; eauto.
        -- destruct s; unfold up, rotate_left, rotate_right; simpl.
           ++ eexists; split; [reflexivity|].
              eapply plug_wf; [|exact Hp2].
              econstructor; [econstructor; [exact Hl|exact Hr] | econstructor; [exact Hsib|exact Hu]].
           ++ eexists; split; [reflexivity|].
              eapply plug_wf; [|exact Hp2].
              econstructor; [econstructor; [exact Hsib|exact Hl] | econstructor; [exact Hr|exact Hu]].
      * simpl. rewrite (is_red_rb _ _ _ Hu).
        destruct c'.
        -- inversion Hu; subst.
           destruct s; unfold up; simpl;
           (eapply IHk; [|reflexivity| | |]); try lia; try eassumption;
             simpl; econstructor; eauto; econstructor; eauto.
        -- destruct s; unfold up, rotate_left, rotate_right; simpl.
           ++ eexists; split; [reflexivity|].
              eapply plug_wf; [|exact Hp2].
              econstructor; [econstructor; [exact Hu|exact Hl] | econstructor; [exact Hr|exact Hsib]].
           ++ eexists; split; [reflexivity|].
              eapply plug_wf; [|exact Hp2].
              econstructor; [econstructor; [exact Hu|exact Hsib] | econstructor; [exact Hl|exact Hr]].
    + simpl. unfold up; simpl.
      eexists; split; [reflexivity|].
      destruct s.
      * eapply plug_wf; [|exact H0].
        econstructor; [econstructor; [exact Hl|exact Hr] | exact H].
      * eapply plug_wf; [|exact H0].
        econstructor; [exact H | econstructor; [exact Hl|exact Hr]].
Qed.

(* insertion below a node whose child on that side is empty *)
Lemma rbtree_set_left t p c x r prel y :
  wf (plug p (Node c Leaf x r)) -> (0 < prel)%Z ->
  exists t', rbtree_set t (Some (p, Node c Leaf x r)) prel y = Some t' /\ wf t' /\
             elements t' = ctx_l p ++ y :: x :: elements r ++ ctx_r p.
Proof.
  intros [h H] Hp. unfold rbtree_set.
  destruct (Z.eqb_spec prel 0); [lia|]. destruct (Z.ltb_spec 0 prel); [|lia].
  change (Node c Leaf x r) with (up (mk_frame L c x r) Leaf) in H.
  change (plug p (up (mk_frame L c x r) Leaf)) with (plug (mk_frame L c x r :: p) Leaf) in H.
  apply plug_rb_inv in H as (c' & h' & H1 & H2). inversion H1; subst.
  edestruct (set_fixup_rb _ (mk_frame L c x r :: p) (Node Red Leaf y Leaf) 0 Leaf y Leaf (le_n _))
    as (t' & Ht & Hw); auto; try constructor.
  exists t'. split; auto. split; auto.
  rewrite (set_fixup_elements _ _ _ _ (le_n _) Ht). simpl. auto.
Qed.
Lemma rbtree_set_right t p c x l prel y :
  wf (plug p (Node c l x Leaf)) -> (prel < 0)%Z ->
  exists t', rbtree_set t (Some (p, Node c l x Leaf)) prel y = Some t' /\ wf t' /\
             elements t' = ctx_l p ++ elements l ++ x :: y :: ctx_r p.
Proof.
  intros [h H] Hp. unfold rbtree_set.
  destruct (Z.eqb_spec prel 0); [lia|]. destruct (Z.ltb_spec 0 prel); [lia|].
  change (Node c l x Leaf) with (up (mk_frame R c x l) Leaf) in H.
  change (plug p (up (mk_frame R c x l) Leaf)) with (plug (mk_frame R c x l :: p) Leaf) in H.
  apply plug_rb_inv in H as (c' & h' & H1 & H2). inversion H1; subst.
  edestruct (set_fixup_rb _ (mk_frame R c x l :: p) (Node Red Leaf y Leaf) 0 Leaf y Leaf (le_n _))
    as (t' & Ht & Hw); auto; try constructor.
  exists t'. split; auto. split; auto.
  rewrite (set_fixup_elements _ _ _ _ (le_n _) Ht). simpl. rewrite <- !app_assoc. auto.
Qed.
Lemma rbtree_set_root t prel y :
  exists t', rbtree_set t None prel y = Some t' /\ wf t' /\ elements t' = [y].
Proof.
  simpl. eexists; split; [reflexivity|]. split; auto.
  exists 1. econstructor; constructor.
Qed.

(* --- min / max / next / prev --- *)
Lemma min_from_spec : forall t p z, min_from p t = Some z ->
  exists c x r, z = (fst z, Node c Leaf x r) /\ plug (fst z) (snd z) = plug p t /\
    ctx_l (fst z) = ctx_l p /\ x :: elements r ++ ctx_r (fst z) = elements t ++ ctx_r p.
Proof.
  induction t as [|c l IHl x r IHr]; intros p z H; simpl in H; [discriminate|].
  destruct l as [|lc ll lx lr].
  - inversion H; subst; simpl. exists c, x, r. auto.
  - apply IHl in H as (c' & x' & r' & H1 & H2 & H3 & H4).
    exists c', x', r'. split; [auto|]. split; [|split].
    + rewrite H2. reflexivity.
    + rewrite H3. reflexivity.
    + rewrite H4. simpl. rewrite <- !app_assoc. simpl. rewrite <- ?app_assoc. auto.
Qed.
Lemma max_from_spec : forall t p z, max_from p t = Some z ->
  exists c x l, z = (fst z, Node c l x Leaf) /\ plug (fst z) (snd z) = plug p t /\
    ctx_r (fst z) = ctx_r p /\ ctx_l (fst z) ++ elements l ++ [x] = ctx_l p ++ elements t.
Proof.
  induction t as [|c l IHl x r IHr]; intros p z H; simpl in H; [discriminate|].
  destruct r as [|rc rl rx rr].
  - inversion H; subst; simpl. exists c, x, l. auto.
  - apply IHr in H as (c' & x' & l' & H1 & H2 & H3 & H4).
    exists c', x', l'. split; [auto|]. split; [|split].
    + rewrite H2. reflexivity.
    + rewrite H3. reflexivity.
    + rewrite H4. simpl. rewrite <- !app_assoc. simpl. auto.
Qed.
Lemma min_from_some p c l x r : exists z, min_from p (Node c l x r) = Some z.
Proof.
  revert p c x r. induction l; intros; simpl; eauto.
Qed.
Lemma max_from_some p c l x r : exists z, max_from p (Node c l x r) = Some z.
Proof.
  revert p c x l. induction r; intros; simpl; eauto.
Qed.

(* the elements before / after a node, and the node's element *)
Definition zbefore (z : zipper A) : list A :=
  match z with
  | (p, Node _ l _ _) => ctx_l p ++ elements l
  | (p, Leaf) => ctx_l p
  end.
Definition zafter (z : zipper A) : list A :=
  match z with
  | (p, Node _ _ _ r) => elements r ++ ctx_r p
  | (p, Leaf) => ctx_r p
  end.
Definition zroot (z : zipper A) : tree A := plug (fst z) (snd z).

Lemma zelems (z : zipper A) x : zelem z = Some x -> elements (zroot z) = zbefore z ++ x :: zafter z.
Proof.
  destruct z as [p [|c l y r]]; unfold zelem, zroot; simpl; [discriminate|].
  intros H; inversion H; subst. rewrite elements_plug. simpl. rewrite <- !app_assoc. auto.
Qed.

Lemma climb_next_spec : forall p n,
  match climb_next p n with
  | Some z => zroot z = plug p n /\ exists x, zelem z = Some x /\ x :: zafter z = ctx_r p /\
              zbefore z = ctx_l p ++ elements n
  | None => ctx_r p = []
  end.
Proof.
  induction p as [|f p IH]; intros n; simpl; auto.
  destruct (f_side f) eqn:E.
  - split; [unfold zroot; simpl; auto|]. unfold up. rewrite E. unfold zelem; simpl.
    exists (f_elem f). auto.
  - specialize (IH (up f n)). destruct (climb_next p (up f n)).
    + destruct IH as (H1 & x & H2 & H3 & H4). split; auto. exists x. split; auto. split; auto.
      rewrite H4, elements_up, E. rewrite <- !app_assoc. auto.
    + auto.
Qed.
Lemma climb_prev_spec : forall p n,
  match climb_prev p n with
  | Some z => zroot z = plug p n /\ exists x, zelem z = Some x /\ zbefore z ++ [x] = ctx_l p /\
              zafter z = elements n ++ ctx_r p
  | None => ctx_l p = []
  end.
Proof.
  induction p as [|f p IH]; intros n; simpl; auto.
  destruct (f_side f) eqn:E.
  - specialize (IH (up f n)). destruct (climb_prev p (up f n)).
    + destruct IH as (H1 & x & H2 & H3 & H4). split; auto. exists x. split; auto. split; auto.
      rewrite H4, elements_up, E. rewrite <- !app_assoc. auto.
    + auto.
  - split; [unfold zroot; simpl; auto|]. unfold up. rewrite E. unfold zelem; simpl.
    exists (f_elem f). rewrite <- app_assoc. auto.
Qed.

Lemma rbtree_next_spec (z : zipper A) x : zelem z = Some x ->
  match rbtree_next z with
  | Some z' => zroot z' = zroot z /\ exists y, zelem z' = Some y /\
               zbefore z' = zbefore z ++ [x] /\ y :: zafter z' = zafter z
  | None => zafter z = []
  end.
Proof.
  destruct z as [p [|c l y r]]; unfold zelem; simpl; [discriminate|].
  intros H; inversion H; subst; clear H.
  destruct r as [|rc rl rx rr].
  - pose proof (climb_next_spec p (Node c l x Leaf)) as H. simpl.
    destruct (climb_next p (Node c l x Leaf)).
    + destruct H as (H1 & y & H2 & H3 & H4). split; auto. exists y. split; auto. split; auto.
      rewrite H4. simpl. rewrite <- app_assoc. auto.
    + auto.
  - destruct (min_from_some (mk_frame R c x l :: p) rc rl rx rr) as (z & Hz).
    rewrite Hz. apply min_from_spec in Hz as (c' & x' & r' & H1 & H2 & H3 & H4).
    split; [unfold zroot; rewrite H2; reflexivity|].
    destruct z as [q nn]. simpl in *. inversion H1; subst. exists x'. split; auto.
    simpl. split; auto. rewrite app_nil_r, H3, <- app_assoc. auto.
Qed.
Lemma rbtree_prev_spec (z : zipper A) x : zelem z = Some x ->
  match rbtree_prev z with
  | Some z' => zroot z' = zroot z /\ exists y, zelem z' = Some y /\
               zbefore z' ++ [y] = zbefore z /\ zafter z' = x :: zafter z
  | None => zbefore z = []
  end.
Proof.
  destruct z as [p [|c l y r]]; unfold zelem; simpl; [discriminate|].
  intros H; inversion H; subst; clear H.
  destruct l as [|lc ll lx lr].
  - pose proof (climb_prev_spec p (Node c Leaf x r)) as H. simpl.
    rewrite app_nil_r.
    destruct (climb_prev p (Node c Leaf x r)).
    + destruct H as (H1 & y & H2 & H3 & H4). split; auto. exists y. split; auto.
    + auto.
  - destruct (max_from_some (mk_frame L c x r :: p) lc ll lx lr) as (z & Hz).
    rewrite Hz. apply max_from_spec in Hz as (c' & x' & l' & H1 & H2 & H3 & H4).
    split; [unfold zroot; rewrite H2; reflexivity|].
    destruct z as [q nn]. simpl in *. inversion H1; subst. exists x'. split; auto.
    simpl. split; auto. rewrite <- app_assoc. auto.
Qed.

Lemma rbtree_min_spec t :
  match rbtree_min t with
  | Some z => zroot z = t /\ zbefore z = [] /\ exists x, zelem z = Some x
  | None => t = Leaf
  end.
Proof.
  unfold rbtree_min. destruct t as [|c l x r]; [reflexivity|].
  destruct (min_from_some [] c l x r) as (z & Hz). rewrite Hz.
  apply min_from_spec in Hz as (c' & x' & r' & H1 & H2 & H3 & H4).
  split; auto. rewrite H1. simpl. rewrite H3. split; auto. exists x'; auto.
Qed.
Lemma rbtree_max_spec t :
  match rbtree_max t with
  | Some z => zroot z = t /\ zafter z = [] /\ exists x, zelem z = Some x
  | None => t = Leaf
  end.
Proof.
  unfold rbtree_max. destruct t as [|c l x r]; [reflexivity|].
  destruct (max_from_some [] c l x r) as (z & Hz). rewrite Hz.
  apply max_from_spec in Hz as (c' & x' & r' & H1 & H2 & H3 & H4).
  split; auto. rewrite H1. simpl. rewrite H3. split; auto. exists x'; auto.
Qed.

(* --- search --- *)
(* the comparison is negative on a prefix, then zero at most once, then positive *)
Definition mono (cmp : A -> Z) (l : list A) : Prop :=
  StronglySorted (fun x y => (cmp x < 0 \/ 0 < cmp y)%Z) l.

Lemma mono_app cmp l1 l2 : mono cmp (l1 ++ l2) ->
  mono cmp l1 /\ mono cmp l2 /\
  forall a b, In a l1 -> In b l2 -> (cmp a < 0 \/ 0 < cmp b)%Z.
Proof.
  unfold mono. induction l1; simpl.
  - intros. split; [constructor|split; auto]. intros ? ? [].
  - intros H. inversion H; subst. apply IHl1 in H2 as (? & ? & ?).
    rewrite Forall_app in H3. destruct H3 as [F1 F2].
    split; [constructor; auto|]. split; auto.
    intros x y [<-|?] ?; auto. rewrite Forall_forall in F2. auto.
Qed.

Definition landed (cmp : A -> Z) (z : zipper A) (rc : Z) : Prop :=
  match z with
  | (p, Node c l x r) =>
      rc = cmp x /\
      ((rc = 0)%Z \/
       ((rc < 0)%Z /\ r = Leaf) \/
       ((0 < rc)%Z /\ l = Leaf))
  | _ => False
  end.

Lemma rb_get_spec cmp : forall t p m rc0 z rc,
  rb_get cmp t p m rc0 = (z, rc) ->
  mono cmp (elements (plug p t)) ->
  Forall (fun a => cmp a < 0)%Z (ctx_l p) ->
  Forall (fun a => 0 < cmp a)%Z (ctx_r p) ->
  (t = Leaf /\ z = m /\ rc = rc0) \/
  (exists zz, z = Some zz /\ zroot zz = plug p t /\ landed cmp zz rc /\
    Forall (fun a => cmp a < 0)%Z (zbefore zz) /\
    Forall (fun a => 0 < cmp a)%Z (zafter zz)).
Proof.
  induction t as [|c l IHl x r IHr]; intros p m rc0 z rc H Hm Hl Hr; simpl in H.
  - left. inversion H; auto.
  - right.
    assert (Hm' := Hm). rewrite elements_plug in Hm'. simpl in Hm'.
    destruct (mono_app _ _ _ Hm') as (_ & Hm1 & _).
    rewrite <- app_assoc in Hm1. simpl in Hm1.
    destruct (mono_app _ _ _ Hm1) as (_ & Hm2 & Hlx).
    inversion Hm2; subst.
    assert (Hxl : (0 <= cmp x)%Z -> Forall (fun a => 0 < cmp a)%Z (elements r)).
    { intros Hc. rewrite Forall_forall in *. intros a Ha.
      specialize (H3 a). rewrite in_app_iff in H3. destruct H3; auto. lia. }
    assert (Hxr : (cmp x <= 0)%Z -> Forall (fun a => cmp a < 0)%Z (elements l)).
    { intros Hc. rewrite Forall_forall. intros a Ha.
      destruct (Hlx a x); simpl; auto. lia. }
    destruct (Z.ltb_spec (cmp x) 0).
    + apply IHr in H; [| exact Hm | |].
      * destruct H as [(-> & -> & ->) | (zz & -> & Q1 & Q2)].
        -- eexists; split; [reflexivity|]. split; [reflexivity|].
           split; [|split].
           ++ simpl. split; auto. 
           ++ simpl. apply Forall_app; split; [solve [auto]|first [apply Hxr; lia|apply Forall_app; split; [apply Hxr; lia|auto]]].
           ++ simpl. auto.
        -- exists zz. auto.
      * simpl. apply Forall_app; split; [assumption|]. apply Forall_app; split; [apply Hxr; lia|auto].
      * simpl. auto.
    + destruct (Z.ltb_spec 0 (cmp x)).
      * apply IHl in H; [| exact Hm | |].
        -- destruct H as [(-> & -> & ->) | (zz & -> & Q1 & Q2)].
           ++ eexists; split; [reflexivity|]. split; [reflexivity|].
              split; [|split].
              ** simpl. split; auto.
              ** simpl. rewrite app_nil_r. auto.
              ** simpl. apply Forall_app; split; [apply Hxl; lia|auto].
           ++ exists zz. auto.
        -- simpl. auto.
        -- simpl. constructor; auto. apply Forall_app; split; [apply Hxl; lia|auto].
      * inversion H; subst; clear H. eexists; split; [reflexivity|]. split; [reflexivity|].
        assert (cmp x = 0)%Z by lia.
        split; [|split].
        -- simpl. split; auto.
        -- simpl. apply Forall_app; split; [solve [auto]|first [apply Hxr; lia|apply Forall_app; split; [apply Hxr; lia|auto]]].
        -- simpl. apply Forall_app; split; [apply Hxl; lia|auto].
Qed.

Lemma rb_get_root cmp t z rc :
  rb_get cmp t [] None 0%Z = (z, rc) -> mono cmp (elements t) ->
  (t = Leaf /\ z = None /\ rc = 0%Z) \/
  (exists zz, z = Some zz /\ zroot zz = t /\ landed cmp zz rc /\
    Forall (fun a => cmp a < 0)%Z (zbefore zz) /\
    Forall (fun a => 0 < cmp a)%Z (zafter zz)).
Proof.
  intros H Hm. apply rb_get_spec in H; auto; simpl; auto.
Qed.

(* --- removal --- *)
Ltac norm := repeat (simpl; rewrite <- ?app_assoc; rewrite ?elements_set_color).

Lemma remove_fixup_elements : forall p n t,
  remove_fixup p n = Some t -> elements t = ctx_l p ++ elements n ++ ctx_r p.
Proof.
  induction p as [|fp p1 IH]; intros n t H.
  - simpl in H. inversion H; subst. norm. rewrite app_nil_r; auto.
  - destruct fp as [s pc px sib]. simpl in H.
    destruct s.
    + destruct sib as [|sc sl sx sr]; [discriminate|].
      destruct sc.
      * (* red sibling *)
        destruct sl as [|sc2 sl2 sx2 sr2]; [discriminate|].
        destruct (negb (is_red sl2) && negb (is_red sr2)).
        -- inversion H; subst. unfold up; simpl. rewrite elements_plug. norm. auto.
        -- apply obind_some in H as (s2 & Hs2 & H).
           destruct s2 as [|c3 sl3 sx3 sr3]; [discriminate|].
           unfold rotate_left, rotate_right in H; simpl in H. inversion H; subst; clear H. unfold up; simpl.
           rewrite elements_set_color, elements_plug. norm.
           assert (elements (Node c3 sl3 sx3 sr3) = elements (Node sc2 sl2 sx2 sr2)) as E.
           { destruct (negb (is_red sr2)).
             - apply rotate_right_elements in Hs2. rewrite Hs2. norm. auto.
             - inversion Hs2; auto. }
           simpl in E.
           replace (elements sl3 ++ sx3 :: elements sr3 ++ sx :: elements sr ++ ctx_r p1)
             with ((elements sl3 ++ sx3 :: elements sr3) ++ sx :: elements sr ++ ctx_r p1)
             by (norm; auto).
           rewrite E. norm. auto.
      * destruct (negb (is_red sl) && negb (is_red sr)).
        -- destruct pc.
           ++ inversion H; subst. rewrite elements_plug. norm. auto.
           ++ apply IH in H. rewrite H. norm. auto.
        -- apply obind_some in H as (s2 & Hs2 & H).
           destruct s2 as [|c3 sl3 sx3 sr3]; [discriminate|].
           unfold rotate_left, rotate_right in H; simpl in H. inversion H; subst; clear H.
           rewrite elements_set_color, elements_plug. norm.
           assert (elements (Node c3 sl3 sx3 sr3) = elements (Node Black sl sx sr)) as E.
           { destruct (negb (is_red sr)).
             - apply rotate_right_elements in Hs2. rewrite Hs2. norm. auto.
             - inversion Hs2; auto. }
           simpl in E.
           replace (elements sl3 ++ sx3 :: elements sr3 ++ ctx_r p1)
             with ((elements sl3 ++ sx3 :: elements sr3) ++ ctx_r p1)
             by (norm; auto).
           rewrite E. norm. auto.
    + destruct sib as [|sc sl sx sr]; [discriminate|].
      destruct sc.
      * destruct sr as [|sc2 sl2 sx2 sr2]; [discriminate|].
        destruct (negb (is_red sl2) && negb (is_red sr2)).
        -- inversion H; subst. unfold up; simpl. rewrite elements_plug. norm. auto.
        -- apply obind_some in H as (s2 & Hs2 & H).
           destruct s2 as [|c3 sl3 sx3 sr3]; [discriminate|].
           unfold rotate_left, rotate_right in H; simpl in H. inversion H; subst; clear H. unfold up; simpl.
           rewrite elements_set_color, elements_plug. norm.
           assert (elements (Node c3 sl3 sx3 sr3) = elements (Node sc2 sl2 sx2 sr2)) as E.
           { destruct (negb (is_red sl2)).
             - apply rotate_left_elements in Hs2. rewrite Hs2. norm. auto.
             - inversion Hs2; auto. }
           simpl in E.
           replace (elements sl3 ++ sx3 :: elements sr3 ++ px :: elements n ++ ctx_r p1)
             with ((elements sl3 ++ sx3 :: elements sr3) ++ px :: elements n ++ ctx_r p1)
             by (norm; auto).
           rewrite E. norm. auto.
      * destruct (negb (is_red sl) && negb (is_red sr)).
        -- destruct pc.
           ++ inversion H; subst. rewrite elements_plug. norm. auto.
           ++ apply IH in H. rewrite H. norm. auto.
        -- apply obind_some in H as (s2 & Hs2 & H).
           destruct s2 as [|c3 sl3 sx3 sr3]; [discriminate|].
           unfold rotate_left, rotate_right in H; simpl in H. inversion H; subst; clear H.
           rewrite elements_set_color, elements_plug. norm.
           assert (elements (Node c3 sl3 sx3 sr3) = elements (Node Black sl sx sr)) as E.
           { destruct (negb (is_red sl)).
             - apply rotate_left_elements in Hs2. rewrite Hs2. norm. auto.
             - inversion Hs2; auto. }
           simpl in E.
           replace (elements sl3 ++ sx3 :: elements sr3 ++ px :: elements n ++ ctx_r p1)
             with ((elements sl3 ++ sx3 :: elements sr3) ++ px :: elements n ++ ctx_r p1)
             by (norm; auto).
           rewrite E. norm. auto.
Qed.

Lemma rb_red_inv l x r c h : rb (Node Red l x r) c h -> c = Red /\ rb l Black h /\ rb r Black h.
Proof. intros H; inversion H; subst; auto. Qed.

Lemma rb_black_inv l x r c c0 h : rb (Node c l x r) c0 (S h) -> c = Black \/ c0 = Black ->
  c = Black /\ c0 = Black /\ exists c1 c2, rb l c1 h /\ rb r c2 h.
Proof.
  intros H Hc; inversion H; subst; [destruct Hc; discriminate|].
  split; auto. split; auto. do 2 eexists; eauto.
Qed.

Definition slot (c : color) (h : nat) := match c with Red => h | Black => S h end.
Lemma rb_node c l x r h : rb l Black h -> rb r Black h -> rb (Node c l x r) c (slot c h).
Proof. destruct c; simpl; intros; econstructor; eauto. Qed.

Lemma plug_wf' p t c h : rb t c h -> rbp p c h ->
  wf (set_color Black (plug p t)) /\ wf (plug p t).
Proof.
  intros H1 H2. destruct (plug_rb p t _ _ H1 H2) as (h' & H).
  split; [rewrite (set_color_black_id _ _ H)|]; exists h'; exact H.
Qed.

Lemma remove_core_l p1 pc n px sl sx sr c1 c2 h :
  rb n Black h -> rb sl c1 h -> rb sr c2 h -> rbp p1 pc (slot pc (S h)) ->
  (negb (is_red sl) && negb (is_red sr))%bool = false ->
  exists t,
    obind (if negb (is_red sr)
           then rotate_right (Node Red (set_color Black sl) sx sr)
           else Some (Node Black sl sx sr)) (fun s2 =>
    match s2 with
    | Leaf => None
    | Node _ sl3 sx3 sr3 =>
        obind (rotate_left (Node Black n px (Node pc sl3 sx3 (set_color Black sr3))))
              (fun t => Some (set_color Black (plug p1 t)))
    end) = Some t /\ wf t.
Proof.
  intros Hn Hl Hr Hp Hb.
  rewrite (is_red_rb _ _ _ Hl), (is_red_rb _ _ _ Hr) in Hb.
  rewrite (is_red_rb _ _ _ Hr).
  destruct c2; simpl.
  - unfold rotate_left; simpl. eexists; split; [reflexivity|].
    inversion Hr; subst. simpl.
    eapply plug_wf'; [|exact Hp]. apply rb_node; econstructor; eauto.
  - destruct c1; [|discriminate]. inversion Hl; subst. simpl.
    unfold rotate_left, rotate_right; simpl. eexists; split; [reflexivity|].
    eapply plug_wf'; [|exact Hp]. apply rb_node; econstructor; eauto.
Qed.
Lemma remove_core_r p1 pc n px sl sx sr c1 c2 h :
  rb n Black h -> rb sl c1 h -> rb sr c2 h -> rbp p1 pc (slot pc (S h)) ->
  (negb (is_red sl) && negb (is_red sr))%bool = false ->
  exists t,
    obind (if negb (is_red sl)
           then rotate_left (Node Red sl sx (set_color Black sr))
           else Some (Node Black sl sx sr)) (fun s2 =>
    match s2 with
    | Leaf => None
    | Node _ sl3 sx3 sr3 =>
        obind (rotate_right (Node Black (Node pc (set_color Black sl3) sx3 sr3) px n))
              (fun t => Some (set_color Black (plug p1 t)))
    end) = Some t /\ wf t.
Proof.
  intros Hn Hl Hr Hp Hb.
  rewrite (is_red_rb _ _ _ Hl), (is_red_rb _ _ _ Hr) in Hb.
  rewrite (is_red_rb _ _ _ Hl).
  destruct c1; simpl.
  - unfold rotate_right; simpl. eexists; split; [reflexivity|].
    inversion Hl; subst. simpl.
    eapply plug_wf'; [|exact Hp]. apply rb_node; econstructor; eauto.
  - destruct c2; [|discriminate]. inversion Hr; subst. simpl.
    unfold rotate_left, rotate_right; simpl. eexists; split; [reflexivity|].
    eapply plug_wf'; [|exact Hp]. apply rb_node; econstructor; eauto.
Qed.

Lemma both_black sl sr c1 c2 h : rb sl c1 h -> rb sr c2 h ->
  (negb (is_red sl) && negb (is_red sr))%bool = true -> c1 = Black /\ c2 = Black.
Proof.
  intros Hl Hr H. rewrite (is_red_rb _ _ _ Hl), (is_red_rb _ _ _ Hr) in H.
  destruct c1, c2; simpl in *; try discriminate; auto.
Qed.

Lemma remove_fixup_rb : forall p n h,
  rb n Black h -> rbp p Black (S h) ->
  exists t, remove_fixup p n = Some t /\ wf t.
Proof.
  induction p as [|fp p1 IH]; intros n h Hn Hp.
  - simpl. eexists; split; [reflexivity|]. rewrite (set_color_black_id _ _ Hn). exists h; auto.
  - destruct fp as [s pc px sib].
    assert (Hsib : exists c', rb sib c' (S h) /\ (pc = Red -> c' = Black)).
    { inversion Hp; subst; eexists; split; eauto; congruence. }
    assert (Hpc : rbp p1 pc (slot pc (S h))) by (inversion Hp; auto).
    destruct Hsib as (c' & Hs & Hcs).
    destruct s; simpl.
    + destruct sib as [|sc sl sx sr]; [inversion Hs|].
      destruct sc.
      * apply rb_red_inv in Hs as (-> & Hsl & Hsr).
        destruct pc; [specialize (Hcs eq_refl); discriminate|]. simpl in Hpc.
        destruct sl as [|sc2 sl2 sx2 sr2]; [inversion Hsl|].
        apply rb_black_inv in Hsl as (-> & _ & c1 & c2 & H2 & H4); [|auto].
        destruct (negb (is_red sl2) && negb (is_red sr2)) eqn:Eb.
        -- apply (both_black _ _ _ _ _ H2 H4) in Eb as [-> ->].
           eexists; split; [reflexivity|]. unfold up; simpl.
           eapply plug_wf'; [|exact Hpc].
           econstructor; [econstructor; [exact Hn|constructor; eauto]|exact Hsr].
        -- eapply remove_core_l; eauto. simpl. econstructor; eauto.
      * apply rb_black_inv in Hs as (_ & -> & c1 & c2 & H2 & H4); [|auto].
        destruct (negb (is_red sl) && negb (is_red sr)) eqn:Eb.
        -- apply (both_black _ _ _ _ _ H2 H4) in Eb as [-> ->].
           destruct pc.
           ++ eexists; split; [reflexivity|].
              eapply plug_wf'; [|eapply rbp_weaken; exact Hpc].
              simpl. econstructor; [exact Hn|constructor; eauto].
           ++ eapply IH; [|exact Hpc]. econstructor; [exact Hn|constructor; eauto].
        -- eapply remove_core_l; eauto.
    + destruct sib as [|sc sl sx sr]; [inversion Hs|].
      destruct sc.
      * apply rb_red_inv in Hs as (-> & Hsl & Hsr).
        destruct pc; [specialize (Hcs eq_refl); discriminate|]. simpl in Hpc.
        destruct sr as [|sc2 sl2 sx2 sr2]; [inversion Hsr|].
        apply rb_black_inv in Hsr as (-> & _ & c1 & c2 & H2 & H4); [|auto].
        destruct (negb (is_red sl2) && negb (is_red sr2)) eqn:Eb.
        -- apply (both_black _ _ _ _ _ H2 H4) in Eb as [-> ->].
           eexists; split; [reflexivity|]. unfold up; simpl.
           eapply plug_wf'; [|exact Hpc].
           econstructor; [exact Hsl|econstructor; [constructor; eauto|exact Hn]].
        -- eapply remove_core_r; eauto. simpl. econstructor; eauto.
      * apply rb_black_inv in Hs as (_ & -> & c1 & c2 & H2 & H4); [|auto].
        destruct (negb (is_red sl) && negb (is_red sr)) eqn:Eb.
        -- apply (both_black _ _ _ _ _ H2 H4) in Eb as [-> ->].
           destruct pc.
           ++ eexists; split; [reflexivity|].
              eapply plug_wf'; [|eapply rbp_weaken; exact Hpc].
              simpl. econstructor; [constructor; eauto|exact Hn].
           ++ eapply IH; [|exact Hpc]. econstructor; [constructor; eauto|exact Hn].
        -- eapply remove_core_r; eauto.
Qed.

(* removing a subtree root: [n] (height of the removed slot given by the colour) *)
Lemma remove_done_spec p n c c1 h :
  rb n c1 h -> (c = Red -> c1 = Black) -> rbp p c (slot c h) ->
  exists t, remove_done p n c = Some t /\ wf t /\
            elements t = ctx_l p ++ elements n ++ ctx_r p.
Proof.
  intros Hn Hc Hp. unfold remove_done. destruct c.
  - rewrite (Hc eq_refl) in Hn. simpl in Hp. apply rbp_weaken in Hp.
    eexists; split; [reflexivity|]. split; [eapply plug_wf'; eauto|]. apply elements_plug.
  - simpl in Hp. rewrite (is_red_rb _ _ _ Hn). destruct c1.
    + eexists; split; [reflexivity|]. inversion Hn; subst. simpl. split.
      * eapply plug_wf'; [|exact Hp]. econstructor; eauto.
      * rewrite elements_plug. auto.
    + destruct (remove_fixup_rb p n h Hn Hp) as (t & Ht & Hw).
      exists t; split; auto. split; auto. apply remove_fixup_elements; auto.
Qed.

Lemma ctx_l_app p q : ctx_l (p ++ q) = ctx_l q ++ ctx_l p.
Proof.
  induction p as [|f p IH]; simpl; [rewrite app_nil_r; auto|].
  destruct (f_side f); rewrite IH; rewrite <- ?app_assoc; auto.
Qed.
Lemma ctx_r_app p q : ctx_r (p ++ q) = ctx_r p ++ ctx_r q.
Proof.
  induction p as [|f p IH]; simpl; auto.
  destruct (f_side f); rewrite IH; simpl; rewrite <- ?app_assoc; auto.
Qed.
Lemma plug_app p q t : plug (p ++ q) t = plug q (plug p t).
Proof. revert t. induction p; simpl; auto. Qed.

Lemma rbtree_remove_spec (z : zipper A) x :
  wf (zroot z) -> zelem z = Some x ->
  exists t, rbtree_remove z = Some t /\ wf t /\ elements t = zbefore z ++ zafter z.
Proof.
  destruct z as [p [|c l y r]]; unfold zelem; simpl; [discriminate|].
  intros [h Hw] Hx; inversion Hx; subst; clear Hx.
  unfold zroot in Hw; simpl in Hw.
  apply plug_rb_inv in Hw as (c0 & h0 & Hnode & Hp).
  assert (Hnode' : exists c1 c2 h1, rb l c1 h1 /\ rb r c2 h1 /\ c0 = c /\ h0 = slot c h1 /\
                   (c = Red -> c1 = Black /\ c2 = Black)).
  { inversion Hnode; subst.
    - exists Black, Black, h0. repeat split; auto.
    - exists c1, c2, h1. repeat split; auto; discriminate. }
  destruct Hnode' as (c1 & c2 & h1 & Hl & Hr & -> & -> & Hred).
  destruct l as [|lc ll lx lr].
  - destruct (remove_done_spec p r c c2 h1 Hr) as (t & Ht & Hw & He); auto.
    { intros Hc. apply Hred in Hc. tauto. }
    exists t. split; auto. split; auto. rewrite He. simpl. rewrite app_nil_r. auto.
  - destruct r as [|rc rl rx rr].
    + destruct (remove_done_spec p (Node lc ll lx lr) c c1 h1 Hl) as (t & Ht & Hw & He); auto.
      { intros Hc. apply Hred in Hc. tauto. }
      exists t. split; auto. split; auto. rewrite He. simpl. rewrite <- !app_assoc. auto.
    + destruct (min_from_some [] rc rl rx rr) as (z & Hz).
      remember (Node rc rl rx rr) as r eqn:Er.
      rewrite Hz.
      destruct (min_from_spec _ _ _ Hz) as (c' & x' & r' & H1 & H2 & H3 & H4).
      destruct z as [q nn]. simpl in *. inversion H1; subst nn; clear H1.
      (* the path with the successor in place of the node *)
      assert (Hfull : exists h', rb (plug (q ++ mk_frame R c x' (Node lc ll lx lr) :: p) (Node c' Leaf x' r')) Black h').
      { rewrite plug_app. rewrite H2. simpl.
        eapply (plug_rb p); [|exact Hp]. unfold up; simpl.
        destruct c; simpl.
        - destruct (Hred eq_refl) as [-> ->]. constructor; auto.
        - econstructor; eauto. }
      destruct Hfull as (h' & Hfull). apply plug_rb_inv in Hfull as (c3 & h3 & Hm & Hpq).
      assert (Hm' : exists c4 h4, rb r' c4 h4 /\ c3 = c' /\ h3 = slot c' h4 /\ (c' = Red -> c4 = Black)).
      { inversion Hm; subst.
        - exists Black, h3. repeat split; auto.
        - do 2 eexists. split; [eassumption|]. repeat split; auto. discriminate. }
      destruct Hm' as (c4 & h4 & Hr' & -> & -> & Hc4).
      edestruct (remove_done_spec _ r' c' c4 h4 Hr' Hc4 Hpq) as (t & Ht & Hw & He).
      exists t. split; [subst r; exact Ht|]. split; auto.
      rewrite He, ctx_l_app, ctx_r_app. simpl. rewrite H3, app_nil_r.
      rewrite <- !app_assoc. simpl.
      replace (elements r) with (elements r ++ []) by apply app_nil_r. rewrite <- H4.
      simpl. rewrite <- !app_assoc. simpl. rewrite <- ?app_assoc. auto.
Qed.

(* --- balance --- *)
Fixpoint depth t : nat :=
  match t with Leaf => 0 | Node _ l _ r => S (Nat.max (depth l) (depth r)) end.

Lemma rb_depth t c h : rb t c h ->
  depth t <= 2 * h + match c with Red => 1 | Black => 0 end.
Proof.
  intros H; induction H; simpl; try lia.
  destruct c1, c2; lia.
Qed.
Lemma rb_size t c h : rb t c h -> 2 ^ h <= S (length (elements t)).
Proof.
  intros H; induction H; simpl; auto.
  - rewrite app_length; simpl. lia.
  - rewrite app_length; simpl. lia.
Qed.
Lemma wf_depth t : wf t -> depth t <= 2 * Nat.log2 (S (length (elements t))).
Proof.
  intros [h H]. pose proof (rb_depth _ _ _ H). pose proof (rb_size _ _ _ H).
  assert (h <= Nat.log2 (S (length (elements t)))).
  { rewrite <- (Nat.log2_pow2 h) by lia. apply Nat.log2_le_mono; auto. }
  simpl in *. lia.
Qed.
End Rb.
