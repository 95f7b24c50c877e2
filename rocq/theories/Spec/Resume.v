(* A client that resumes: every batch is the next part of a source, behind what is acknowledged. *)
From Coq Require Import NArith List.
Import ListNotations.
From Verif Require Import Model.Base Model.Event Model.Engine Spec.Engine.
From Verif Require Import Model.Crash Spec.Crash.

Definition next_of (src : list event) (b : db) (h : list event) (l : list warg) : Prop :=
  let evs := assigned (en_serial (db_en b)) (en_ssn (db_en b)) l in
  evs = firstn (length evs) (skipn (length h) src).
Definition resumes (src : list event) (b : db) (h : list event) (o : cop) : Prop :=
  match o with
  | CWrite l _ => next_of src b h l
  | CCrashIn l _ => next_of src b h l
  | _ => True
  end.
Fixpoint resume_hist (src : list event) (b : db) (h : list event) (l : list cop) : Prop :=
  match l with
  | [] => True
  | o :: t =>
      resumes src b h o /\
      match cstep b o with
      | Ok b' => resume_hist src b' (cack_step b o h) t
      | _ => resume_hist src b (cack_step b o h) t
      end
  end.
