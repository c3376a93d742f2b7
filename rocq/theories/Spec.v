(** The specification of the raw key-value operations: a plain finite map.  This file is
    independent of the implementation model (only the names of modes and statuses are
    shared). *)
From Verif Require Import Base Hashing Fs Shard.

Notation kvmap := (gmap bytes bytes).

(** What an insertion does to the map and what it reports. *)
Definition spec_ins (m : kvmap) (k v : bytes) (mode : ins_mode) : kvmap * ins_status :=
  match m !! k, mode with
  | Some old, MGetOrCreate => (m, SExists old)
  | Some old, MReplace (Some ex) =>
    if bool_decide (ex = old) then (<[k := v]> m, SReplaced old) else (m, SExists old)
  | Some old, (MReplace None | MSet) => (<[k := v]> m, SReplaced old)
  | None, MReplace _ => (m, SNoKey)
  | None, (MSet | MGetOrCreate) => (<[k := v]> m, SAdded)
  end.

(** Size of an entry in bytes. *)
Definition kvsize (x : kv) : N := len (fst x) + len (snd x).
