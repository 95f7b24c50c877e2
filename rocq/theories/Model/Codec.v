(* Packed little-endian structures.

   The structures written to files are declared packed and copied byte by byte; integers are
   little-endian (x86_64, aarch64). A structure is the list of its field widths in bytes; [pack]
   stores values, [unpack] loads them.
   Sources: /repo/monotone/engine/io/event.h:34-41 (Event). *)
From Coq Require Import NArith Arith List Bool.
Import ListNotations.
From Verif Require Import Model.Base Model.Event Model.Crc.

(* the low [k] bytes of a value *)
Fixpoint le (k : nat) (n : N) : list byte :=
  match k with
  | O => []
  | S k => (n mod 256)%N :: le k (n / 256)%N
  end.

Fixpoint pack (l : list (nat * N)) : list byte :=
  match l with
  | [] => []
  | (k, v) :: t => le k v ++ pack t
  end.

Fixpoint unpack (ws : list nat) (l : list byte) : list N :=
  match ws with
  | [] => []
  | k :: t => le_value (firstn k l) :: unpack t (skipn k l)
  end.

Definition width (ws : list nat) : nat := fold_right Nat.add 0 ws.

(* [n] bytes at [off], when they exist *)
Definition slice_of (off n : nat) (l : list byte) : option (list byte) :=
  if (off + n <=? length l)%nat then Some (firstn n (skipn off l)) else None.

(* event.h:34-41: id, flags, key_size, data_size *)
Definition event_fields : list nat := [8; 1; 1; 4].

(* event.h:67-78 event_init: header, key, value *)
Definition event_bytes (e : event) : list byte :=
  pack [(8, ev_id e); (1, ev_flags e); (1, N.of_nat (length (ev_key e)));
        (4, N.of_nat (length (ev_key e) + length (ev_val e)))]
  ++ ev_key e ++ ev_val e.

(* event.h:49-53 event_size: the key size counts twice *)
Definition event_size (e : event) : N :=
  (14 + N.of_nat (length (ev_key e)) + N.of_nat (length (ev_key e) + length (ev_val e)))%N.

(* an event in memory: its bytes and the bytes that follow them. event_size(event) bytes are
   copied by the writers (region_writer.h:150-151, wal log.h), so [key_size] bytes beyond
   the event are read. *)
Definition mevent := (event * list byte)%type.
Definition event_image (m : mevent) : list byte :=
  event_bytes (fst m) ++ firstn (length (ev_key (fst m))) (snd m).

(* an Event at the start of a buffer: event.h:34-68. None: reads outside of the buffer. *)
Definition event_load (l : list byte) : option event :=
  match slice_of 0 14 l with
  | None => None
  | Some h =>
      match unpack event_fields h with
      | [id; flags; ks; ds] =>
          let ks := N.to_nat ks in
          let ds := N.to_nat ds in
          match slice_of 14 ds l with
          | None => None
          | Some d => Some (mk_event id flags (firstn ks d) (skipn ks d))
          end
      | _ => None
      end
  end.
