(* How the writer cuts events into regions, without bytes (see File.v for the bytes).

   Sources: /repo/monotone/engine/io/writer.c:61-67,79-96,166-189; region_writer.h:77-81. *)
From Coq Require Import NArith ZArith List Bool.
Import ListNotations.
From Verif Require Import Model.Base Model.Event Model.Codec Model.PartIter.

(* region_writer.h:77-81 in uint32_t *)
Definition region_bytes (r : region) : N :=
  w32 (24 + 4 * N.of_nat (length r) + fold_right (fun e n => event_size e + n)%N 0%N r).

Definition region_last_id (r : region) : N :=
  match rev r with e :: _ => ev_id e | [] => 0%N end.

(* finished regions and the started one *)
Definition wregions := (list region * option region)%type.

(* writer.c:166-189; [limit] is (uint32_t)region_size *)
Definition cut_add (limit : N) (w : wregions) (e : event) : wregions :=
  match snd w with
  | None => (fst w, Some [e])
  | Some r =>
      if (limit <=? region_bytes r)%N then
        if (region_last_id r =? ev_id e)%N then (fst w, Some (r ++ [e]))
        else (fst w ++ [r], Some [e])
      else (fst w, Some (r ++ [e]))
  end.

(* writer.c:125-132: the started region is finished *)
Definition cut_stop (w : wregions) : list region :=
  match snd w with
  | None => fst w
  | Some r => fst w ++ [r]
  end.

Definition cut_regions (limit : N) (evs : list event) : pfile :=
  cut_stop (fold_left (cut_add limit) evs ([], None)).
