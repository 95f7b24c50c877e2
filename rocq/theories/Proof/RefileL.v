(* Lemmas on a refresh that reads and writes files. *)
From Coq Require Import NArith ZArith Arith List Bool Lia.
Import ListNotations.
From Verif Require Import Model.Base Model.Event Model.Codec Model.File Model.Vfs Model.Refile Spec.Refile Proof.VfsL Proof.VfsX.

Lemma merge2_nil_l b : merge2 [] b = b.
Proof. destruct b; reflexivity. Qed.
Lemma merge2_nil_r a : merge2 a [] = a.
Proof. destruct a; reflexivity. Qed.
Lemma merge2_cons x a y b : merge2 (x :: a) (y :: b) =
  if (compare (fst x) (fst y) =? 0)%Z then x :: merge2 a b
  else if (0 <? compare (fst x) (fst y))%Z then y :: merge2 (x :: a) b else x :: merge2 a (y :: b).
Proof. reflexivity. Qed.

Section Refile.
Variable compress : N -> nat -> list N -> list N.
Variable decompress : N -> list N -> N -> res (list N).
Variable encrypt : N -> nat -> list N -> list N.
Variable decrypt : N -> list N -> res (list N).
Variable s : source.
Variable ix : index.

Notation loop := (merger_loop compress decompress encrypt decrypt s ix).
Notation load := (load decompress decrypt ix).
Notation add := (merger_add compress encrypt s).

(* each region of the list holds these events *)
Definition holds (old : list N) (refs : list index_region) (ls : list (list mevent)) : Prop :=
  Forall2 (fun r l => load old r = Ok l /\ l <> []) refs ls.

Lemma loop_separate old : forall fuel w mem refs ls cur,
  holds old refs ls -> length mem + length cur + length (concat ls) < fuel ->
  loop (fun _ => old) fuel w mem refs cur = Ok (fold_left add (merge2 mem (cur ++ concat ls)) w).
Proof.
  induction fuel as [|fuel IH]; intros w mem refs ls cur Hh Hf; [lia|].
  cbn [merger_loop].
  assert (R : exists refs2 ls2 cur2, refill decompress decrypt ix (fun _ => old) w refs cur = Ok (refs2, cur2) /\ holds old refs2 ls2 /\
             cur ++ concat ls = cur2 ++ concat ls2 /\ (cur2 = [] -> refs2 = [] /\ ls2 = [])).
  { destruct cur as [|c cur].
    - destruct Hh as [|r l refs ls [Hl Hn] Hh].
      + exists [], [], []. cbn. repeat split; auto. constructor.
      + cbn [refill]. rewrite Hl. cbn [bind]. exists refs, ls, l. repeat split; auto; congruence.
    - exists refs, ls, (c :: cur). cbn. repeat split; auto; congruence. }
  destruct R as (refs2 & ls2 & cur2 & E & Hh2 & Ec & Hn). rewrite E. cbn [bind]. rewrite Ec.
  assert (L : length mem + length (cur2 ++ concat ls2) < S fuel) by (rewrite <- Ec, app_length; lia). rewrite app_length in L.
  clear E Ec Hf Hh. destruct cur2 as [|c cur2].
  - destruct (Hn eq_refl) as [-> ->]. cbn [app concat]. destruct mem as [|m mem].
    + reflexivity.
    + rewrite (IH _ _ _ []) by (auto; cbn in *; lia). rewrite merge2_nil_r. cbn [app concat]. rewrite merge2_nil_r. reflexivity.
  - destruct mem as [|m mem].
    + rewrite (IH _ _ _ ls2) by (auto; cbn in *; lia). rewrite !merge2_nil_l. reflexivity.
    + cbn [app]. rewrite merge2_cons. cbv zeta. cbn [length] in L. destruct (compare (fst m) (fst c) =? 0)%Z.
      * rewrite (IH _ _ _ ls2) by (auto; lia). reflexivity.
      * destruct (0 <? compare (fst m) (fst c))%Z.
        -- rewrite (IH _ _ _ ls2) by (auto; cbn [length]; lia). reflexivity.
        -- rewrite (IH _ _ _ ls2) by (auto; cbn [length]; lia). reflexivity.
Qed.

(* reading the file that is written, as long as what is written stays behind what is read *)
Fixpoint behind (old : list N) (fuel : nat) (w : writer) (mem : list mevent) (refs : list index_region) (cur : list mevent) : Prop :=
  match fuel with
  | O => True
  | S fuel =>
    (match cur, refs with
     | [], r :: _ => length (w_file w) <= N.to_nat (ir_offset r) <= length old
     | _, _ => True
     end) /\
    match refill decompress decrypt ix (fun _ => old) w refs cur with
    | Ok (refs, cur) =>
      match mem, cur with
      | [], [] => True
      | m :: mem, [] => behind old fuel (add w m) mem refs []
      | [], c :: cur => behind old fuel (add w c) [] refs cur
      | m :: mem', c :: cur' =>
        if (compare (fst m) (fst c) =? 0)%Z then behind old fuel (add w m) mem' refs cur'
        else if (0 <? compare (fst m) (fst c))%Z then behind old fuel (add w c) mem refs cur'
        else behind old fuel (add w m) mem' refs cur
      end
    | _ => True
    end
  end.

Lemma load_over old new r : length new <= N.to_nat (ir_offset r) <= length old -> load (over old new) r = load old r.
Proof.
  intros [H1 H2]. unfold Refile.load, reader_execute, pread. rewrite over_slice_tail by lia. reflexivity.
Qed.
Lemma loop_behind old : forall fuel w mem refs cur, behind old fuel w mem refs cur ->
  loop (over old) fuel w mem refs cur = loop (fun _ => old) fuel w mem refs cur.
Proof.
  induction fuel as [|fuel IH]; intros w mem refs cur Hb; [reflexivity|]. cbn [merger_loop behind] in *. destruct Hb as [H0 Hb].
  assert (R : refill decompress decrypt ix (over old) w refs cur = refill decompress decrypt ix (fun _ => old) w refs cur).
  { unfold refill. destruct cur; [|reflexivity]. destruct refs as [|r refs]; [reflexivity|]. rewrite load_over by exact H0. reflexivity. }
  rewrite R. destruct (refill decompress decrypt ix (fun _ => old) w refs cur) as [[refs2 cur2]| |]; cbn [bind]; try reflexivity.
  destruct mem as [|m mem], cur2 as [|c cur2]; auto. cbv zeta.
  destruct (compare (fst m) (fst c) =? 0)%Z; auto. destruct (0 <? compare (fst m) (fst c))%Z; auto.
Qed.

(* one region is read before anything is written *)
Lemma behind_no_refs old : forall fuel w mem cur, behind old fuel w mem [] cur.
Proof.
  induction fuel as [|fuel IH]; intros w mem cur; cbn [behind]; [exact I|]. split; [destruct cur; exact I|].
  destruct cur as [|c cur]; cbn [refill].
  - destruct mem; auto.
  - destruct mem; auto. destruct (_ =? _)%Z; auto. destruct (_ <? _)%Z; auto.
Qed.
Lemma behind_one old fuel mem r : N.to_nat (ir_offset r) <= length old -> behind old fuel writer_start mem [r] [].
Proof.
  intro H. destruct fuel as [|fuel]; cbn [behind]; [exact I|]. split; [cbn; lia|].
  destruct (refill decompress decrypt ix (fun _ => old) writer_start [r] []) as [[refs cur]| |] eqn:E; auto.
  cbn [refill] in E. destruct (load old r) as [l| |]; cbn [bind] in E; try discriminate. injection E as <- <-.
  destruct mem as [|m mem], l as [|c l]; auto using behind_no_refs.
  destruct (_ =? _)%Z; auto using behind_no_refs. destruct (_ <? _)%Z; auto using behind_no_refs.
Qed.
End Refile.

(* ---- whole refreshes ---- *)
Lemma fold_live compress encrypt s : forall l w, fold_left (merger_add compress encrypt s) l w = fold_left (writer_add compress encrypt s) (filter live l) w.
Proof. induction l as [|m l IH]; intro w; cbn; [reflexivity|]. unfold merger_add at 2, live at 1. destruct (event_is_delete (fst m)); cbn; apply IH. Qed.

Lemma refresh_separate compress decompress encrypt decrypt s st old ix refs ls fuel mem :
  holds decompress decrypt ix old refs ls -> length mem + length (concat ls) < fuel ->
  refresh_file false compress decompress encrypt decrypt s st old None ix refs fuel mem
  = Ok (write_file compress encrypt s st (filter live (merge2 mem (concat ls)))).
Proof.
  intros Hh Hf. unfold refresh_file. rewrite (loop_separate _ _ _ _ _ _ _ _ _ _ _ ls) by (auto; cbn; lia). cbn [bind app].
  f_equal. rewrite fold_live. apply create_exact. exact I.
Qed.
Lemma refresh_own compress decompress encrypt decrypt s st old left ix refs ls fuel mem :
  holds decompress decrypt ix old refs ls -> length mem + length (concat ls) < fuel ->
  behind compress decompress encrypt decrypt s ix old fuel writer_start mem refs [] ->
  refresh_file true compress decompress encrypt decrypt s st old left ix refs fuel mem
  = Ok (over old (write_file compress encrypt s st (filter live (merge2 mem (concat ls))))).
Proof.
  intros Hh Hf Hb. unfold refresh_file.
  assert (E : merger_loop compress decompress encrypt decrypt s ix (fun written => fd_data (os_write (fl_fd (file_create (Some old))) written)) fuel writer_start mem refs []
            = merger_loop compress decompress encrypt decrypt s ix (fun _ => old) fuel writer_start mem refs []) by (apply loop_behind; exact Hb).
  cbv beta iota zeta. rewrite E. rewrite (loop_separate _ _ _ _ _ _ _ _ _ _ _ ls) by (auto; cbn; lia). cbn [bind app].
  rewrite fold_live. reflexivity.
Qed.
Lemma refresh_own_one compress decompress encrypt decrypt s st old left ix r l fuel mem :
  load decompress decrypt ix old r = Ok l -> l <> [] -> N.to_nat (ir_offset r) <= length old -> length mem + length l < fuel ->
  refresh_file true compress decompress encrypt decrypt s st old left ix [r] fuel mem
  = Ok (over old (write_file compress encrypt s st (filter live (merge2 mem l)))).
Proof.
  intros Hl Hn Ho Hf. pose proof (refresh_own compress decompress encrypt decrypt s st old left ix [r] [l] fuel mem) as Q.
  cbn [concat] in Q. rewrite app_nil_r in Q. apply Q; auto; [constructor; [auto|constructor]|]. apply behind_one, Ho.
Qed.

(* ---- examples ---- *)
Definition own_old : list N := write_file plain_c plain_e one_source (mk_stamp 0 10 1 0 0 0) [ev1 1 11; ev1 6 16; ev1 7 17; ev1 8 18].
Definition own_ix : index := match index_open own_old with Ok ix => ix | _ => mk_index 0 0 0 0 0 0 0 0 0 0 0 0 0 0 0 0 0 0 0 0 end.
Definition own_refs : list index_region :=
  match index_read plain_d plain_k own_old own_ix with
  | Ok data => flat_map (fun i => match index_get data i with Some r => [r] | None => [] end) (seq 0 (N.to_nat (ix_regions own_ix)))
  | _ => []
  end.
Definition own_mem : list mevent := [ev1 2 22; ev1 3 23; ev1 4 24; ev1 5 25].
Definition events_of (file : res (list N)) : res (list (list event)) :=
  match file with Ok f => match read_file plain_d plain_k f with Ok (_, l) => Ok l | Err => Err | UB => UB end | Err => Err | UB => UB end.
Definition own_result (own : bool) : res (list N) :=
  refresh_file own plain_c plain_d plain_e plain_k one_source (mk_stamp 0 10 2 0 0 0) own_old None own_ix own_refs 20 own_mem.
Lemma own_holds : holds plain_d plain_k own_ix own_old own_refs [[ev1 1 11]; [ev1 6 16]; [ev1 7 17]; [ev1 8 18]].
Proof.
  unfold holds. replace own_refs with (let r o id c := mk_iregion o c id id 43 43 1 in [r 0 1 3472573748; r 43 6 1953016982; r 86 7 3784168084; r 129 8 4091205517])%N by (vm_compute; reflexivity).
  repeat constructor; try discriminate; vm_compute; reflexivity.
Qed.
Lemma own_right : events_of (own_result false) = Ok (map (fun m => [fst m]) [ev1 1 11; ev1 2 22; ev1 3 23; ev1 4 24; ev1 5 25; ev1 6 16; ev1 7 17; ev1 8 18]).
Proof. vm_compute. reflexivity. Qed.
Lemma own_wrong : events_of (own_result true) = Ok (map (fun m => [fst m]) [ev1 1 11; ev1 2 22; ev1 3 23; ev1 4 24; ev1 5 25; ev1 6 16; ev1 3 23; ev1 4 24]).
Proof. vm_compute. reflexivity. Qed.

Definition lone_old : list N := write_file plain_c plain_e (mk_source 1000 0 0 true) (mk_stamp 0 10 1 0 0 0) [ev1 1 11; ev1 6 16; ev1 7 17; ev1 8 18].
Definition lone_ix : index := match index_open lone_old with Ok ix => ix | _ => own_ix end.
Definition lone_ref : index_region := mk_iregion 0 0 1 8 100 100 4.
Lemma lone_example : load plain_d plain_k lone_ix lone_old lone_ref = Ok [(fst (ev1 1 11), skipn 55 (firstn 100 lone_old)); (fst (ev1 6 16), skipn 70 (firstn 100 lone_old)); (fst (ev1 7 17), skipn 85 (firstn 100 lone_old)); ev1 8 18] /\
  N.to_nat (ir_offset lone_ref) <= length lone_old.
Proof. split; [vm_compute; reflexivity|vm_compute; lia]. Qed.
(* four regions, no event before the last of them: what is written never passes what is read *)
Lemma behind_example : behind plain_c plain_d plain_e plain_k one_source own_ix own_old 9 writer_start [ev1 9 29] own_refs [].
Proof. vm_compute. repeat split; lia. Qed.
